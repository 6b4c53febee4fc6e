(** * What every property is given by a minified block *)
From Coq Require Import List Bool PeanoNat Lia.
From Verif Require Import BlockModel BlockSpec BlockProofs BlockIndexProofs BlockRestProofs.
Import ListNotations.

Section Used.
Context {A R Cond : Type}.
Variable ctx : context.
Variable unused : nat -> bool.
Variable req : R -> R -> bool.
Variable raw_fallbacks : R -> list (Cond * R) * R.
Notation handle := (handle ctx unused req raw_fallbacks).
Notation handle_all := (handle_all ctx unused req raw_fallbacks).
Notation minify := (minify ctx unused req raw_fallbacks).
Notation handle_custom := (handle_custom ctx unused req raw_fallbacks).
Notation state := (state A R Cond).
Notation decl := (decl A R).
Notation part := (part A R Cond).

Lemma Forall_replace (P : decl -> Prop) l i d : Forall P l -> P d -> Forall P (replace l i d).
Proof.
  intros F D. unfold replace. apply Forall_app. split; [apply Forall_forall; intros x I; rewrite Forall_forall in F; apply F; rewrite <- (firstn_skipn i l); apply in_or_app; left; exact I|].
  constructor; [exact D|]. apply Forall_forall. intros x I. rewrite Forall_forall in F. apply F. rewrite <- (firstn_skipn (S i) l). apply in_or_app. right. exact I.
Qed.
Lemma Forall_kept (P : decl -> Prop) m l : Forall P l -> Forall P (kept_customs m l).
Proof.
  intros F. apply Forall_forall. intros d I. unfold kept_customs in I. apply in_flat_map in I. destruct I as [p [_ I]].
  destruct (nth_error l (snd p)) as [e|] eqn:E; [|destruct I]. destruct I as [<-|[]]. rewrite Forall_forall in F. apply F. exact (nth_error_In _ _ E).
Qed.
Lemma filter_fold {B} (f : B -> decl -> B) (K : decl -> bool) l o : Forall (fun d => K d = true \/ forall o, f o d = o) l ->
  fold_left f (filter K l) o = fold_left f l o.
Proof.
  intros F. revert o. induction F as [|d l [Kd|Kd] F IH]; intros o; cbn; [reflexivity|rewrite Kd; apply IH|].
  rewrite Kd. destruct (K d); cbn; [rewrite Kd|]; apply IH.
Qed.

(** ** A property of every declaration that stays in a block without handlers *)
Lemma bare_all (P : decl -> Prop) l : forall s : state, handlers s = [] -> Forall P (decls s) ->
  (forall n u, P (Custom n u)) -> (forall kw, P (All kw)) -> Forall (fun d => match d with Unparsed _ _ | Plain _ => P d | _ => True end) l ->
  Forall P (decls (fst (handle_all s l))) /\ handlers (fst (handle_all s l)) = [].
Proof.
  induction l as [|d l IH]; intros s H F C L Fl; [split; [exact F|exact H]|]. cbn [BlockModel.handle_all].
  assert (H1 : handlers (fst (handle s d)) = [] /\ Forall P (decls (fst (handle s d)))).
  { pose proof (Forall_inv Fl) as Pd. destruct d as [a|v|v|kw|k w|name w]; cbn [BlockModel.handle].
    - rewrite H. cbn. split; [reflexivity|]. apply Forall_app. auto.
    - cbn. auto.
    - cbn. auto.
    - cbn. rewrite H. split; [reflexivity|]. apply Forall_app. split; [apply Forall_kept; exact F|auto].
    - cbn. split; [exact H|]. apply Forall_app. auto.
    - unfold BlockModel.handle_custom. destruct (unused name); [auto|]. destruct (lookup _ _); [destruct (same_custom _ _ _ _ _); [auto|]|]; destruct (custom_fallbacks _ _ _ _); cbn.
      + split; [exact H|]. apply Forall_replace; auto.
      + split; [exact H|]. apply Forall_app. auto. }
  destruct (handle s d) as [s1 x]. cbn [fst] in H1. specialize (IH s1 (proj1 H1) (proj2 H1) C L (Forall_inv_tail Fl)).
  destruct (handle_all s1 l) as [s2 y]. exact IH.
Qed.

(** ** [direction] and [unicode-bidi] *)
Lemma direction_state l o : Forall (fun d => rest d = true) l -> Forall (parsed SDirection) l -> forall s : state, handlers s = [] ->
  let held (s : state) := match direction s with Some v => Given v | None => o end in
  held (fst (handle_all s l)) = direction_from (held s) l.
Proof.
  intros Fr Fp. induction l as [|d l IH]; intros s H; [reflexivity|]. cbn zeta in *. cbn [BlockModel.handle_all].
  specialize (IH (Forall_inv_tail Fr) (Forall_inv_tail Fp)). pose proof (Forall_inv Fr) as Rd. pose proof (Forall_inv Fp) as Pd.
  assert (E : handlers (fst (handle s d)) = [] /\
    match direction (fst (handle s d)) with Some v => Given v | None => o end
    = direction_from (match direction s with Some v => Given v | None => o end) [d]).
  { destruct d as [a|v|v|kw|k w|name w]; try discriminate Rd; cbn [BlockModel.handle].
    - split; [exact H|reflexivity].
    - split; [exact H|reflexivity].
    - cbn. rewrite H. split; reflexivity.
    - cbn. split; [exact H|]. destruct k; [destruct (Pd eq_refl)|reflexivity|reflexivity].
    - unfold BlockModel.handle_custom. destruct (unused name); [split; [exact H|reflexivity]|].
      destruct (lookup _ _); [destruct (same_custom _ _ _ _ _); [split; [exact H|reflexivity]|]|]; destruct (custom_fallbacks _ _ _ _); (split; [exact H|reflexivity]). }
  destruct (handle s d) as [s1 x]. cbn [fst] in E. destruct E as [E1 E2]. specialize (IH s1 E1). destruct (handle_all s1 l) as [s2 y]. cbn [fst] in *.
  rewrite IH, E2. reflexivity.
Qed.
Lemma bidi_state l o : Forall (fun d => rest d = true) l -> Forall (parsed SBidi) l -> forall s : state, handlers s = [] ->
  let held (s : state) := match bidi s with Some v => Given v | None => o end in
  held (fst (handle_all s l)) = bidi_from (held s) l.
Proof.
  intros Fr Fp. induction l as [|d l IH]; intros s H; [reflexivity|]. cbn zeta in *. cbn [BlockModel.handle_all].
  specialize (IH (Forall_inv_tail Fr) (Forall_inv_tail Fp)). pose proof (Forall_inv Fr) as Rd. pose proof (Forall_inv Fp) as Pd.
  assert (E : handlers (fst (handle s d)) = [] /\
    match bidi (fst (handle s d)) with Some v => Given v | None => o end
    = bidi_from (match bidi s with Some v => Given v | None => o end) [d]).
  { destruct d as [a|v|v|kw|k w|name w]; try discriminate Rd; cbn [BlockModel.handle].
    - split; [exact H|reflexivity].
    - split; [exact H|reflexivity].
    - cbn. rewrite H. split; reflexivity.
    - cbn. split; [exact H|]. destruct k; [reflexivity|destruct (Pd eq_refl)|reflexivity].
    - unfold BlockModel.handle_custom. destruct (unused name); [split; [exact H|reflexivity]|].
      destruct (lookup _ _); [destruct (same_custom _ _ _ _ _); [split; [exact H|reflexivity]|]|]; destruct (custom_fallbacks _ _ _ _); (split; [exact H|reflexivity]). }
  destruct (handle s d) as [s1 x]. cbn [fst] in E. destruct E as [E1 E2]. specialize (IH s1 E1). destruct (handle_all s1 l) as [s2 y]. cbn [fst] in *.
  rewrite IH, E2. reflexivity.
Qed.
Lemma fold_same {B} (f : B -> decl -> B) l o : Forall (fun d => forall o, f o d = o) l -> fold_left f l o = o.
Proof. intros F. revert o. induction F as [|d l H F IH]; intros o; [reflexivity|]. cbn. rewrite H. apply IH. Qed.

Lemma Forall_filter {B} (P : B -> Prop) f l : Forall P l -> Forall P (filter f l).
Proof. induction 1 as [|x l H F IH]; [constructor|]. cbn. destruct (f x); [constructor; assumption|exact IH]. Qed.
Lemma filter_true {B} (f : B -> bool) l : Forall (fun x => f x = true) (filter f l).
Proof. induction l as [|x l IH]; [constructor|]. cbn. destruct (f x) eqn:E; [constructor; assumption|exact IH]. Qed.

Theorem minify_direction (ps : list part) hs (l : list decl) o : separate ps -> ready ps hs -> Forall (parsed SDirection) l ->
  direction_from o (snd (fst (minify hs l))) = direction_from o l.
Proof.
  intros S Y F. pose proof (minify_bare ctx unused req raw_fallbacks ps hs l S Y) as M. destruct (minify hs l) as [[hs' ds] x]. cbn [fst snd].
  assert (Q : forall l : list decl, direction_from o (filter rest l) = direction_from o l).
  { intros l'. apply filter_fold. apply Forall_forall. intros d _. destruct d; auto. }
  rewrite <- (Q ds), <- (Q l). unfold BlockModel.minify in M.
  pose proof (direction_state (filter rest l) o (filter_true rest l) (Forall_filter _ _ _ F) (begin []) eq_refl) as D.
  pose proof (bare_all (fun d => match d with Direction _ | Unparsed SDirection _ => False | _ => True end) (filter rest l) (begin []) eq_refl (Forall_nil _) (fun _ _ => I) (fun _ => I)) as B.
  destruct (handle_all (begin []) (filter rest l)) as [t y]. cbn [fst] in *. cbn zeta in D. cbn [begin direction bidi] in D. unfold finish in M.
  destruct B as [B H].
  { apply Forall_forall. intros d J. apply filter_In in J. destruct J as [J _]. rewrite Forall_forall in F. specialize (F d J). clear - F. destruct d as [| | | |[] w|]; cbn in *; auto. }
  rewrite H in M. cbn [finish_all] in M. destruct M as [M _]. rewrite M, <- D. unfold direction_from. rewrite fold_left_app.
  rewrite (fold_same _ (decls t)) by (eapply Forall_impl; [|exact B]; intros d; destruct d as [| | | |k w|]; try contradiction; try reflexivity; destruct k; [contradiction|reflexivity|reflexivity]).
  destruct (direction t), (bidi t); reflexivity.
Qed.
Theorem minify_bidi (ps : list part) hs (l : list decl) o : separate ps -> ready ps hs -> Forall (parsed SBidi) l ->
  bidi_from o (snd (fst (minify hs l))) = bidi_from o l.
Proof.
  intros S Y F. pose proof (minify_bare ctx unused req raw_fallbacks ps hs l S Y) as M. destruct (minify hs l) as [[hs' ds] x]. cbn [fst snd].
  assert (Q : forall l : list decl, bidi_from o (filter rest l) = bidi_from o l).
  { intros l'. apply filter_fold. apply Forall_forall. intros d _. destruct d; auto. }
  rewrite <- (Q ds), <- (Q l). unfold BlockModel.minify in M.
  pose proof (bidi_state (filter rest l) o (filter_true rest l) (Forall_filter _ _ _ F) (begin []) eq_refl) as D.
  pose proof (bare_all (fun d => match d with Bidi _ | Unparsed SBidi _ => False | _ => True end) (filter rest l) (begin []) eq_refl (Forall_nil _) (fun _ _ => I) (fun _ => I)) as B.
  destruct (handle_all (begin []) (filter rest l)) as [t y]. cbn [fst] in *. cbn zeta in D. cbn [begin direction bidi] in D. unfold finish in M.
  destruct B as [B H].
  { apply Forall_forall. intros d J. apply filter_In in J. destruct J as [J _]. rewrite Forall_forall in F. specialize (F d J). clear - F. destruct d as [| | | |[] w|]; cbn in *; auto. }
  rewrite H in M. cbn [finish_all] in M. destruct M as [M _]. rewrite M, <- D. unfold bidi_from. rewrite fold_left_app.
  rewrite (fold_same _ (decls t)) by (eapply Forall_impl; [|exact B]; intros d; destruct d as [| | | |k w|]; try contradiction; try reflexivity; destruct k; [reflexivity|contradiction|reflexivity]).
  destruct (direction t), (bidi t); reflexivity.
Qed.

(** ** Custom properties *)
Definition named (name : nat) (d : decl) : bool := match d with Custom n _ => Nat.eqb n name | _ => false end.
Definition unique (m : list (nat * nat)) (ds : list decl) : Prop :=
  NoDup (map fst m) /\ customs_ok m ds
  /\ forall name, filter (named name) ds = match lookup name m with Some i => match nth_error ds i with Some d => [d] | None => [] end | None => [] end.

Lemma lookup_not name m : lookup name m = None -> ~ In name (map fst m).
Proof.
  unfold lookup. induction m as [|[n i] m IH]; intros E I; [destruct I|]. cbn in *. destruct (Nat.eqb n name) eqn:En; [discriminate|].
  destruct I as [->|I]; [rewrite Nat.eqb_refl in En; discriminate|]. exact (IH E I).
Qed.
Lemma not_lookup name m : ~ In name (map fst m) -> lookup name m = None.
Proof.
  unfold lookup. induction m as [|[n i] m IH]; intros N; [reflexivity|]. cbn in *. destruct (Nat.eqb n name) eqn:E; [apply Nat.eqb_eq in E; destruct N; auto|].
  apply IH. auto.
Qed.
Lemma lookup_app name m n i : lookup name (m ++ [(n, i)]) = match lookup name m with Some j => Some j | None => if Nat.eqb n name then Some i else None end.
Proof. unfold lookup. induction m as [|[n' i'] m IH]; cbn; [destruct (Nat.eqb n name); reflexivity|]. destruct (Nat.eqb n' name); [reflexivity|exact IH]. Qed.
Lemma named_push m ds d : unique m ds -> (forall name, named name d = false) -> unique m (ds ++ [d]).
Proof.
  intros [N [O U]] D. split; [exact N|]. split.
  - intros n i I. destruct (O n i I) as [u E]. exists u. rewrite nth_error_app1; [exact E|]. apply nth_error_Some. rewrite E. discriminate.
  - intros name. rewrite filter_app, U. cbn. rewrite D, app_nil_r. destruct (lookup name m) as [i|] eqn:E; [|reflexivity].
    rewrite nth_error_app1; [reflexivity|]. exact (customs_lt _ _ name i O (lookup_in _ _ _ E)).
Qed.
Lemma filter_named_replace name name' ds i u u' : nth_error ds i = Some (Custom name u) ->
  filter (named name') (replace ds i (Custom name u')) = if Nat.eqb name name' then replace (filter (named name') ds) (at_ (named name') ds i) (Custom name u') else filter (named name') ds.
Proof.
  intros N. destruct (Nat.eqb name name') eqn:E.
  - apply (filter_replace _ _ _ _ _ N); exact E.
  - revert i N. induction ds as [|d ds IH]; intros [|i] N; try discriminate; unfold replace in *; cbn [nth_error firstn skipn app filter] in *.
    + injection N as ->. cbn. rewrite E. reflexivity.
    + specialize (IH i N). destruct (named name' d); [f_equal|]; exact IH.
Qed.
Lemma unique_replace m ds i name u u' : unique m ds -> lookup name m = Some i -> nth_error ds i = Some (Custom name u) ->
  unique m (replace ds i (Custom name u')).
Proof.
  intros [N [O U]] E Ni. assert (I : i < length ds) by (apply nth_error_Some; rewrite Ni; discriminate). split; [exact N|]. split.
  - intros n j J. rewrite replace_nth by exact I. destruct (O n j J) as [w W]. destruct (Nat.eqb i j) eqn:Ei; [|eauto].
    apply Nat.eqb_eq in Ei. subst j. rewrite Ni in W. injection W as <- <-. eauto.
  - intros name'. rewrite (filter_named_replace name name' ds i u u' Ni). destruct (Nat.eqb name name') eqn:En.
    + apply Nat.eqb_eq in En. subst name'. pose proof (at_lt (named name) ds i _ Ni (Nat.eqb_refl name)) as Lt. pose proof (U name) as F. rewrite E, Ni in F. rewrite F in *. cbn in Lt.
      rewrite E, replace_nth, Nat.eqb_refl by exact I. replace (at_ (named name) ds i) with 0 by lia. reflexivity.
    + rewrite U. destruct (lookup name' m) as [j|] eqn:Ej; [|reflexivity]. rewrite replace_nth by exact I. destruct (Nat.eqb i j) eqn:Eij; [|reflexivity].
      apply Nat.eqb_eq in Eij. subst j. destruct (O name' i (lookup_in _ _ _ Ej)) as [w W]. rewrite Ni in W. injection W as <- <-. rewrite Nat.eqb_refl in En. discriminate.
Qed.
Lemma unique_push m ds name u : unique m ds -> lookup name m = None -> unique (m ++ [(name, length ds)]) (ds ++ [Custom name u]).
Proof.
  intros [N [O U]] E. split; [|split].
  - rewrite map_app. cbn. apply NoDup_Add with (a := name) (l := map fst m); [rewrite <- (app_nil_r (map fst m)) at 1; apply Add_app|].
    split; [exact N|apply lookup_not; exact E].
  - intros n j I. apply in_app_or in I. destruct I as [I|[I|[]]].
    + destruct (O n j I) as [z Nz]. exists z. rewrite nth_error_app1; [exact Nz|]. apply nth_error_Some. rewrite Nz. discriminate.
    + injection I as <- <-. exists u. rewrite nth_error_app2 by lia. rewrite Nat.sub_diag. reflexivity.
  - intros name'. rewrite filter_app, U, lookup_app. cbn [filter named]. destruct (lookup name' m) as [j|] eqn:Ej.
    + replace (Nat.eqb name name') with false.
      * rewrite app_nil_r, nth_error_app1; [reflexivity|]. exact (customs_lt _ _ name' j O (lookup_in _ _ _ Ej)).
      * symmetry. apply Nat.eqb_neq. intros <-. rewrite E in Ej. discriminate.
    + destruct (Nat.eqb name name'); [|reflexivity]. rewrite nth_error_app2, Nat.sub_diag by lia. reflexivity.
Qed.
Lemma lookup_cons name n i m : lookup name ((n, i) :: m) = if Nat.eqb n name then Some i else lookup name m.
Proof. unfold lookup. cbn. destruct (Nat.eqb n name); reflexivity. Qed.
Lemma reset_lookup name ds m : NoDup (map fst m) -> customs_ok m ds -> forall b,
  match lookup name m with
  | None => lookup name (combine (map fst m) (seq b (length m))) = None /\ filter (named name) (kept_customs m ds) = []
  | Some i => exists k u, lookup name (combine (map fst m) (seq b (length m))) = Some (b + k) /\ nth_error (kept_customs m ds) k = Some (Custom name u)
                /\ nth_error ds i = Some (Custom name u) /\ filter (named name) (kept_customs m ds) = [Custom name u]
  end.
Proof.
  induction m as [|[n i] m IH]; intros N O b; [split; reflexivity|]. destruct (O n i (or_introl eq_refl)) as [u E]. rewrite (kept_cons _ _ _ _ u E).
  inversion N as [|x y Nn Nm]; subst. specialize (IH Nm (fun n' i' I => O n' i' (or_intror I)) (S b)).
  cbn [map fst length seq combine]. rewrite !lookup_cons.
  cbn [filter named]. destruct (Nat.eqb n name) eqn:En.
  - apply Nat.eqb_eq in En. subst n. rewrite (not_lookup _ _ Nn) in IH. exists 0, u. rewrite Nat.add_0_r. destruct IH as [_ ->]. auto.
  - destruct (lookup name m) as [j|]; [|exact IH]. destruct IH as [k [w [I1 [I2 [I3 I4]]]]]. exists (S k), w. rewrite I1. cbn [nth_error].
    split; [f_equal; lia|]. auto.
Qed.
Lemma unique_reset m ds kw : unique m ds -> unique (combine (map fst m) (seq 0 (length m))) (kept_customs m ds ++ [All kw]).
Proof.
  intros [N [O U]]. split; [|split; [exact (customs_ok_reset _ _ _ O)|]].
  - replace (map fst (combine (map fst m) (seq 0 (length m)))) with (map fst m); [exact N|].
    generalize 0 at 1. clear. induction m as [|p m IH]; intros b; [reflexivity|]. cbn. f_equal. apply IH.
  - intros name. rewrite filter_app. cbn [filter named]. rewrite app_nil_r. pose proof (reset_lookup name ds m N O 0) as H.
    destruct (lookup name m) as [i|].
    + destruct H as [k [u [-> [H2 [_ ->]]]]]. cbn [Nat.add]. rewrite nth_error_app1, H2; [reflexivity|]. apply nth_error_Some. rewrite H2. discriminate.
    + destruct H as [-> ->]. reflexivity.
Qed.
Lemma reset_same name m ds kw : unique m ds -> filter (named name) (kept_customs m ds ++ [All kw]) = filter (named name) ds.
Proof.
  intros [N [O U]]. rewrite filter_app. cbn [filter named]. rewrite app_nil_r, U. pose proof (reset_lookup name ds m N O 0) as H.
  destruct (lookup name m) as [i|]; [destruct H as [k [u [_ [_ [-> ->]]]]]; reflexivity|exact (proj2 H)].
Qed.

Section Value.
Variable X : Type.
Variable value : R -> X.
Variable name : nat.
Hypothesis used_name : unused name = false.
Hypothesis req_eq : forall a b, req a b = true -> a = b.
Definition same_value (d : decl) : Prop :=
  match d with Custom n u => n = name -> value (snd (custom_fallbacks ctx raw_fallbacks (A := A) n u)) = value u | _ => True end.

Lemma custom_filter o l : custom_from value name o (filter (named name) l) = custom_from value name o l.
Proof. apply filter_fold. apply Forall_forall. intros d _. destruct d as [| | | | |n u]; cbn; auto. destruct (Nat.eqb n name); auto. Qed.
Lemma custom_step (s : state) d o : handlers s = [] -> unique (customs s) (decls s) -> rest d = true -> same_value d ->
  let s2 := fst (handle s d) in
  handlers s2 = [] /\ unique (customs s2) (decls s2)
  /\ custom_from value name o (decls s2) = custom_from value name (custom_from value name o (decls s)) [d].
Proof.
  intros H U Rd V. pose proof U as [N [O F]]. cbn zeta. destruct d as [a|v|v|kw|k w|n w]; try discriminate Rd; cbn [BlockModel.handle].
  - cbn. auto.
  - cbn. auto.
  - unfold reset. cbn [fst handlers customs decls]. rewrite H. split; [reflexivity|]. split; [apply unique_reset; exact U|].
    rewrite <- custom_filter, (reset_same name _ _ kw U), custom_filter. reflexivity.
  - cbn. split; [exact H|]. split; [apply named_push; [exact U|reflexivity]|]. unfold custom_from. rewrite fold_left_app. reflexivity.
  - unfold BlockModel.handle_custom. destruct (unused n) eqn:En.
    { cbn [fst]. split; [exact H|]. split; [exact U|]. cbn. destruct (Nat.eqb n name) eqn:E; [|reflexivity]. apply Nat.eqb_eq in E. congruence. }
    cbn in V. destruct (lookup n (customs s)) as [i|] eqn:E.
    + destruct (O n i (lookup_in _ _ _ E)) as [z Nz]. destruct (same_custom req (decls s) i n w) eqn:Es.
      * cbn [fst]. split; [exact H|]. split; [exact U|]. unfold same_custom in Es. rewrite Nz, Nat.eqb_refl in Es. apply req_eq in Es. subst z. cbn.
        destruct (Nat.eqb n name) eqn:Ez; [|reflexivity]. apply Nat.eqb_eq in Ez. subst n. rewrite <- custom_filter, F, E, Nz. cbn. rewrite Nat.eqb_refl. reflexivity.
      * destruct (custom_fallbacks ctx raw_fallbacks n w) as [x u']. cbn [fst snd] in *. cbn [set_decls handlers customs decls].
        split; [exact H|]. split; [exact (unique_replace _ _ _ _ z u' U E Nz)|].
        pose proof (unique_replace _ _ _ _ z u' U E Nz) as [_ [_ F2]]. cbn [custom_from fold_left].
        rewrite <- custom_filter, F2. destruct (Nat.eqb n name) eqn:Ez.
        -- apply Nat.eqb_eq in Ez. subst n. rewrite E, replace_nth, Nat.eqb_refl by (apply nth_error_Some; rewrite Nz; discriminate). cbn. rewrite Nat.eqb_refl, (V eq_refl). reflexivity.
        -- rewrite <- (custom_filter o (decls s)), F. destruct (lookup name (customs s)) as [j|] eqn:Ej; [|reflexivity].
           rewrite replace_nth by (apply nth_error_Some; rewrite Nz; discriminate). destruct (Nat.eqb i j) eqn:Eij; [|reflexivity].
           apply Nat.eqb_eq in Eij. subst j. destruct (O name i (lookup_in _ _ _ Ej)) as [y Ny]. rewrite Nz in Ny. injection Ny as <- <-. rewrite Nat.eqb_refl in Ez. discriminate.
    + destruct (custom_fallbacks ctx raw_fallbacks n w) as [x u']. cbn [fst snd] in *. cbn [handlers customs decls].
      split; [exact H|]. split; [exact (unique_push _ _ _ _ U E)|]. unfold custom_from. rewrite fold_left_app. cbn. destruct (Nat.eqb n name) eqn:Ez; [|reflexivity].
      apply Nat.eqb_eq in Ez. rewrite (V Ez). reflexivity.
Qed.
Lemma custom_steps l o : Forall (fun d => rest d = true) l -> Forall same_value l -> forall s : state, handlers s = [] -> unique (customs s) (decls s) ->
  custom_from value name o (decls (fst (handle_all s l))) = custom_from value name (custom_from value name o (decls s)) l
  /\ handlers (fst (handle_all s l)) = [].
Proof.
  intros Fr Fv. induction l as [|d l IH]; intros s H U; [auto|]. cbn [BlockModel.handle_all].
  destruct (custom_step s d o H U (Forall_inv Fr) (Forall_inv Fv)) as [H1 [U1 E1]]. destruct (handle s d) as [s1 x]. cbn [fst] in *.
  specialize (IH (Forall_inv_tail Fr) (Forall_inv_tail Fv) s1 H1 U1). destruct (handle_all s1 l) as [s2 y]. cbn [fst] in *.
  destruct IH as [IH H2]. split; [|exact H2]. rewrite IH, E1. reflexivity.
Qed.
Theorem minify_custom (ps : list part) hs (l : list decl) o : separate ps -> ready ps hs -> Forall same_value l ->
  custom_from value name o (snd (fst (minify hs l))) = custom_from value name o l.
Proof.
  intros S Y F. pose proof (minify_bare ctx unused req raw_fallbacks ps hs l S Y) as M. destruct (minify hs l) as [[hs' ds] x]. cbn [fst snd].
  assert (Q : forall l : list decl, custom_from value name o (filter rest l) = custom_from value name o l).
  { intros l'. apply filter_fold. apply Forall_forall. intros d _. destruct d; auto. }
  rewrite <- (Q ds), <- (Q l). unfold BlockModel.minify in M.
  assert (U : unique (customs (begin (Cond := Cond) (A := A) (R := R) [])) (decls (begin (Cond := Cond) (A := A) (R := R) []))).
  { split; [constructor|]. split; [intros n i []|reflexivity]. }
  destruct (custom_steps (filter rest l) o (filter_true rest l) (Forall_filter _ _ _ F) (begin []) eq_refl U) as [E H].
  destruct (handle_all (begin []) (filter rest l)) as [t y]. cbn [fst] in *. unfold finish in M. rewrite H in M. cbn [finish_all] in M. destruct M as [M _].
  change (custom_from value name o (decls (begin (Cond := Cond) (A := A) (R := R) []))) with o in E. rewrite M, <- E. unfold custom_from. rewrite fold_left_app. destruct (direction t), (bidi t); reflexivity.
Qed.
End Value.

(** ** The longhands of one handler *)
Section One.
Variable C : Type.
Variable p : part.
Variable gives : A -> option C.
Hypothesis gives_own : forall a, owns p a = false -> gives a = None.

Lemma used_filter (l : list decl) o : Forall (parsed SAll) l -> used_from gives o (filter (kept (owns p)) l) = used_from gives o l.
Proof.
  intros F. apply filter_fold. eapply Forall_impl; [|exact F]. intros d P. destruct d as [a| | | |k u|]; cbn; auto.
  - destruct (owns p a) eqn:E; [auto|]. right. intros o'. rewrite (gives_own a E). reflexivity.
  - right. intros o'. destruct k; auto. destruct (P eq_refl).
Qed.
Lemma minify_parsed (ps : list part) hs (l : list decl) : separate ps -> ready ps hs -> Forall (parsed SAll) l -> Forall (parsed SAll) (snd (fst (minify hs l))).
Proof.
  intros S Y F. pose proof (minify_bare ctx unused req raw_fallbacks ps hs l S Y) as M. destruct (minify hs l) as [[hs' ds] x]. cbn [fst snd].
  unfold BlockModel.minify in M.
  pose proof (bare_all (parsed SAll) (filter rest l) (begin []) eq_refl (Forall_nil _) (fun _ _ => I) (fun _ => I)) as B.
  destruct B as [B H].
  { apply Forall_forall. intros d J. apply filter_In in J. destruct J as [J _]. rewrite Forall_forall in F. specialize (F d J). destruct d; auto. }
  destruct (handle_all (begin []) (filter rest l)) as [t y]. cbn [fst] in *. unfold finish in M. rewrite H in M. cbn [finish_all] in M. destruct M as [M _].
  assert (G : Forall (parsed SAll) (filter rest ds)).
  { rewrite M. apply Forall_app. split; [exact B|]. destruct (direction t), (bidi t); repeat constructor. }
  apply Forall_forall. intros d J. rewrite Forall_forall in G. destruct d; try exact I. apply G. apply filter_In. split; [exact J|reflexivity].
Qed.

Lemma steps_app (h : handler A R Cond) s ds (l : list A) a : steps h s ds (l ++ [a]) =
  let '(s1, ds1, x) := steps h s ds l in
  match hhandle h s1 ds1 a with Some (s2, ds2, y) => (s2, ds2, x ++ y) | None => (s1, ds1 ++ [Plain a], x) end.
Proof.
  revert s ds. induction l as [|b l IH]; intros s ds; cbn [steps app].
  - destruct (hhandle h s ds a) as [[[s1 ds1] x]|]; [|reflexivity]. cbn. rewrite app_nil_r. reflexivity.
  - destruct (hhandle h s ds b) as [[[s1 ds1] x]|]; [|apply IH]. rewrite IH. destruct (steps h s1 ds1 l) as [[s2 ds2] y].
    destruct (hhandle h s2 ds2 a) as [[[s3 ds3] z]|]; [rewrite app_assoc|]; reflexivity.
Qed.
Definition base (s : hstate (of p)) (ds : list decl) : Prop := idle p s /\ ds = [] \/ s = hstart (of p) /\ exists kw, ds = [All kw].
Lemma solo (l : list decl) o : forall b bs acc u ds x0, base b bs -> steps (of p) b bs acc = (u, ds, x0) -> Forall (parsed SAll) l ->
  let (t2, x) := handle_all (State [Running (of p) u] None None [] ds) (filter (kept (owns p)) l) in
  exists b2 bs2 u2 ds2 x1 x2, base b2 bs2 /\ t2 = State [Running (of p) u2] None None [] ds2
    /\ steps (of p) b2 bs2 (segment (owns p) acc l) = (u2, ds2, x2) /\ x0 ++ x = x1 ++ x2
    /\ used_from gives o (bs2 ++ map Plain (segment (owns p) acc l)) = used_from gives o ((bs ++ map Plain acc) ++ filter (kept (owns p)) l).
Proof.
  induction l as [|d l IH]; intros b bs acc u ds x0 B E F.
  - cbn. exists b, bs, u, ds, [], x0. rewrite !app_nil_r. auto 6.
  - pose proof (Forall_inv F) as Pd. apply Forall_inv_tail in F. destruct d as [a|v|v|kw|k w|n w]; cbn [filter kept segment]; try (exact (IH b bs acc u ds x0 B E F)).
    + destruct (owns p a) eqn:Oa; [|exact (IH b bs acc u ds x0 B E F)]. cbn [BlockModel.handle_all BlockModel.handle handlers decls].
      rewrite try_single. pose proof (steps_app (of p) b bs acc a) as Sa. rewrite E in Sa.
      destruct (hhandle (of p) u ds a) as [[[u1 ds1] y]|]; cbn [set_decls handlers direction bidi customs decls].
      * specialize (IH b bs (acc ++ [a]) u1 ds1 (x0 ++ y) B Sa F). destruct (handle_all _ _) as [t2 x]. destruct IH as [b2 [bs2 [u2 [ds2 [x1 [x2 [I1 [I2 [I3 [I4 I5]]]]]]]]]].
        exists b2, bs2, u2, ds2, x1, x2. rewrite I5, map_app, <- !app_assoc. rewrite <- app_assoc in I4. auto 6.
      * specialize (IH b bs (acc ++ [a]) u (ds ++ [Plain a]) x0 B Sa F). destruct (handle_all _ _) as [t2 x]. destruct IH as [b2 [bs2 [u2 [ds2 [x1 [x2 [I1 [I2 [I3 [I4 I5]]]]]]]]]].
        exists b2, bs2, u2, ds2, x1, x2. rewrite I5, map_app, <- !app_assoc. auto 6.
    + cbn [BlockModel.handle_all BlockModel.handle]. unfold reset. cbn [handlers direction bidi customs decls map combine kept_customs flat_map app seq length restart rhandler].
      specialize (IH (hstart (of p)) [All kw] [] (hstart (of p)) [All kw] [] (or_intror (conj eq_refl (ex_intro _ kw eq_refl))) eq_refl F).
      destruct (handle_all _ _) as [t2 x]. destruct IH as [b2 [bs2 [u2 [ds2 [x1 [x2 [I1 [I2 [I3 [I4 I5]]]]]]]]]].
      exists b2, bs2, u2, ds2, (x0 ++ x1), x2. cbn [app] in *. split; [exact I1|]. split; [exact I2|]. split; [exact I3|]. split; [rewrite <- app_assoc, <- I4; reflexivity|].
      rewrite I5. unfold used_from. rewrite !fold_left_app. reflexivity.
Qed.

Theorem minify_used (ps : list part) hs i (l : list decl) o : separate ps -> ready ps hs -> nth_error ps i = Some p -> Forall (parsed SAll) l ->
  keeps p gives (segment (owns p) [] l) ->
  filter (fun r => mine (owns p) (snd r)) (snd (minify hs l)) = [] ->
  used_from gives o (snd (fst (minify hs l))) = used_from gives o l.
Proof.
  intros S Y P F K X. pose proof (minify_parsed ps hs l S Y F) as F2. destruct (ready_nth ps hs i p Y P) as [s [N Id]].
  pose proof (minify_together ctx unused req raw_fallbacks ps hs i p s l S Y P N Id) as M. destruct (minify hs l) as [[hs' ds] x]. cbn [fst snd] in *.
  unfold BlockModel.minify in M.
  pose proof (solo l o s [] [] s [] [] (or_introl (conj Id eq_refl)) eq_refl F) as H. cbn [app] in H. unfold begin in M.
  destruct (handle_all _ _) as [t y]. destruct H as [b2 [bs2 [u2 [ds2 [x1 [x2 [I1 [-> [I3 [I4 I5]]]]]]]]]].
  unfold finish in M. cbn [handlers decls direction bidi opt app finish_all] in M. rewrite app_nil_r in M.
  destruct (hfinish (of p) u2 ds2) as [[u3 ds3] x3] eqn:Ef. destruct M as [M1 M2].
  assert (A1 : alone (of p) b2 bs2 (segment (owns p) [] l) = (ds3, x2 ++ x3)) by (unfold alone; rewrite I3, Ef; reflexivity).
  rewrite X in M2. rewrite I4, app_nil_r in M2. symmetry in M2. apply app_eq_nil in M2. destruct M2 as [M2 M3]. apply app_eq_nil in M2. destruct M2 as [_ ->].
  specialize (K b2 bs2 o I1). rewrite A1 in K. cbn [fst snd] in K. specialize (K M3).
  rewrite <- (used_filter ds o F2), M1, K, I5. apply used_filter. exact F.
Qed.
End One.
End Used.
