(** * Handlers that share a declaration block do not disturb each other *)
From Coq Require Import List Bool PeanoNat Lia.
From Verif Require Import BlockModel BlockSpec.
Import ListNotations.

Section Lists.
Context {A R : Type}.
Implicit Types (K : decl A R -> bool) (l m : list (decl A R)).

Lemma apart_refl K l : apart K l l.
Proof. induction l; constructor; auto. Qed.
Lemma apart_app K l e : Forall (fun d => K d = false) e -> apart K l (l ++ e).
Proof. intros F. induction l; cbn; constructor; auto. Qed.
Lemma filter_none K l : Forall (fun d => K d = false) l -> filter K l = [].
Proof. induction 1 as [|d l E F IH]; [reflexivity|]. cbn. rewrite E. exact IH. Qed.
Lemma apart_filter K l m : apart K l m -> filter K m = filter K l.
Proof.
  induction 1 as [l F|d l m H IH|d e l m D E H IH]; cbn.
  - apply filter_none. exact F.
  - rewrite IH. reflexivity.
  - rewrite D, E. exact IH.
Qed.
Lemma apart_nth K l m i d : apart K l m -> nth_error l i = Some d -> K d = true -> nth_error m i = Some d.
Proof.
  intros H. revert i. induction H as [l F|x l m H IH|x e l m D E H IH]; intros [|i] N Kd; cbn in *; try discriminate; auto.
  injection N as ->. rewrite D in Kd. discriminate.
Qed.
Lemma apart_length K l m : apart K l m -> length l <= length m.
Proof. induction 1; cbn; lia. Qed.
Lemma apart_impl K K' l m : (forall d, K d = false -> K' d = false) -> apart K l m -> apart K' l m.
Proof.
  intros I. induction 1 as [l F|d l m H IH|d e l m D E H IH].
  - apply apart_end. eapply Forall_impl; [|exact F]. auto.
  - apply apart_same. exact IH.
  - apply apart_other; auto.
Qed.
Lemma apart_trans K l m n : apart K l m -> apart K m n -> apart K l n.
Proof.
  intros H. revert n. induction H as [l F|d l m H IH|d e l m D E H IH]; intros n N.
  - apply apart_end. revert F. induction N as [n G|x l n N IH|x y l n X Y N IH]; intros F; [exact G| |].
    + constructor; [exact (Forall_inv F)|]. apply IH. exact (Forall_inv_tail F).
    + constructor; [exact Y|]. apply IH. exact (Forall_inv_tail F).
  - inversion N; subst; [apply apart_same; auto|apply apart_other; auto].
  - inversion N; subst; apply apart_other; auto.
Qed.
Lemma apart_replace K l i d e : nth_error l i = Some d -> K d = false -> K e = false -> apart K l (replace l i e).
Proof.
  revert i. induction l as [|x l IH]; intros [|i] N D E; cbn in *; try discriminate.
  - injection N as ->. unfold replace. cbn. apply apart_other; [exact D|exact E|apply apart_refl].
  - unfold replace. cbn. apply apart_same. apply (IH i); auto.
Qed.
Lemma replace_length l i e : i < length l -> length (replace l i e) = length l.
Proof. intros H. unfold replace. rewrite app_length. cbn [length]. rewrite firstn_length, skipn_length. lia. Qed.
Lemma replace_nth l i e j : i < length l -> nth_error (replace l i e) j = if Nat.eqb i j then Some e else nth_error l j.
Proof.
  revert i j. induction l as [|x l IH]; intros [|i] [|j] H; cbn in *; try lia; try reflexivity.
  unfold replace in *. cbn. apply IH. lia.
Qed.
End Lists.

Section Update.
Context {B : Type}.
Definition put (i : nat) (x : B) (l : list B) : list B := firstn i l ++ x :: skipn (S i) l.
Lemma put_nth l i x j : i < length l -> nth_error (put i x l) j = if Nat.eqb i j then Some x else nth_error l j.
Proof.
  revert i j. induction l as [|y l IH]; intros [|i] [|j] H; cbn in *; try lia; try reflexivity.
  unfold put in *. cbn. apply IH. lia.
Qed.
Lemma put_length l i x : i < length l -> length (put i x l) = length l.
Proof. intros H. unfold put. rewrite app_length. cbn [length]. rewrite firstn_length, skipn_length. lia. Qed.
End Update.

Section Parts.
Context {A R Cond : Type}.
Variable ctx : context.
Variable unused : nat -> bool.
Variable req : R -> R -> bool.
Variable raw_fallbacks : R -> list (Cond * R) * R.
Notation handle := (handle ctx unused req raw_fallbacks).
Notation handle_all := (handle_all ctx unused req raw_fallbacks).
Notation minify := (minify ctx unused req raw_fallbacks).
Notation handle_custom := (handle_custom ctx unused req raw_fallbacks).
Implicit Types (ps : list (part A R Cond)) (p q : part A R Cond) (hs : list (running A R Cond)) (ds : list (decl A R)).

(** Every handler is in a state that is like one of its own *)
Definition linked ps hs ds : Prop :=
  length hs = length ps
  /\ forall j q, nth_error ps j = Some q ->
       exists s, nth_error hs j = Some (Running (of q) s) /\ exists s' ds', like q s ds s' ds'.

Lemma linked_apart ps hs ds e : linked ps hs ds -> (forall q, In q ps -> apart (kept (owns q)) ds e) -> linked ps hs e.
Proof.
  intros [L H] F. split; [exact L|]. intros j q N. destruct (H j q N) as [s [Hs [s' [ds' Q]]]]. exists s. split; [exact Hs|].
  exists s', ds'. apply (like_apart q s ds s' ds' e Q). apply F. exact (nth_error_In _ _ N).
Qed.
Lemma mine_apart ps i j p q ds e : separate ps -> nth_error ps i = Some p -> nth_error ps j = Some q -> i <> j ->
  apart (fun d => negb (mine (owns p) d)) ds e -> apart (kept (owns q)) ds e.
Proof.
  intros S P Q D. apply apart_impl. intros d M. apply negb_false_iff in M. destruct d as [a| | | | |]; cbn in *; try discriminate.
  destruct (owns q a) eqn:E; [|reflexivity]. destruct D. exact (S i j p q a P Q M E).
Qed.
Lemma mine_other ps i j p q (x : rules A R Cond) : separate ps -> nth_error ps i = Some p -> nth_error ps j = Some q -> i <> j ->
  Forall (fun r => mine (owns p) (snd r) = true) x -> filter (fun r => mine (owns q) (snd r)) x = [].
Proof.
  intros S P Q D F. induction F as [|[pl d] x M F IH]; [reflexivity|]. cbn [filter snd] in *.
  destruct d as [a| | | | |]; cbn in M |- *; try discriminate. destruct (owns q a) eqn:E; [|exact IH].
  destruct D. exact (S i j p q a P Q M E).
Qed.
Lemma filter_all {B} (f : B -> bool) l : Forall (fun x => f x = true) l -> filter f l = l.
Proof. induction 1 as [|x l E F IH]; [reflexivity|]. cbn. rewrite E, IH. reflexivity. Qed.

(** ** One declaration *)
Lemma try_none ps hs ds a : linked ps hs ds -> (forall q, In q ps -> owns q a = false) -> try hs ds a = None.
Proof.
  revert hs. induction ps as [|p ps IH]; intros hs [L H] F.
  - destruct hs; [reflexivity|discriminate L].
  - destruct hs as [|h hs]; [discriminate L|]. destruct (H 0 p eq_refl) as [s [N _]]. injection N as ->. cbn [try].
    rewrite (ignores p) by (apply F; left; reflexivity). rewrite IH; [reflexivity| |intros q I; apply F; right; exact I].
    split; [injection L as L; exact L|]. intros j q N. exact (H (S j) q N).
Qed.
Lemma try_owner ps hs ds a i p s : length hs = length ps ->
  (forall j q, nth_error ps j = Some q -> exists s, nth_error hs j = Some (Running (of q) s)) ->
  nth_error ps i = Some p -> nth_error hs i = Some (Running (of p) s) ->
  (forall j q, nth_error ps j = Some q -> j <> i -> owns q a = false) ->
  try hs ds a = match hhandle (of p) s ds a with Some (s', e, x) => Some (put i (Running (of p) s') hs, e, x) | None => None end.
Proof.
  revert hs i. induction ps as [|q ps IH]; intros hs i L H P N F; [destruct i; discriminate P|].
  destruct hs as [|h hs]; [discriminate L|]. destruct i as [|i].
  - cbn in P, N. injection P as ->. injection N as ->. cbn [try]. destruct (hhandle (of p) s ds a) as [[[s' e] x]|]; [reflexivity|].
    assert (E : try hs ds a = None); [|rewrite E; reflexivity]. injection L as L.
    assert (F' : forall j q, nth_error ps j = Some q -> owns q a = false) by (intros j q Q; exact (F (S j) q Q (Nat.neq_succ_0 j))).
    assert (H' : forall j q, nth_error ps j = Some q -> exists s, nth_error hs j = Some (Running (of q) s)) by (intros j q Q; exact (H (S j) q Q)).
    clear - L F' H'. revert hs L H'. induction ps as [|q ps IH]; intros hs L H'; [destruct hs; [reflexivity|discriminate L]|].
    destruct hs as [|h hs]; [discriminate L|]. destruct (H' 0 q eq_refl) as [s N]. injection N as ->. cbn [try].
    rewrite (ignores q) by exact (F' 0 q eq_refl). rewrite IH; [reflexivity| | |].
    + intros j r Q. exact (F' (S j) r Q).
    + injection L as L. exact L.
    + intros j r Q. exact (H' (S j) r Q).
  - destruct (H 0 q eq_refl) as [s0 N0]. cbn in N0. injection N0 as ->. cbn [try].
    rewrite (ignores q) by (apply (F 0 q eq_refl); discriminate). cbn in P, N. injection L as L.
    rewrite (IH hs i L (fun j r => H (S j) r) P N).
    + destruct (hhandle (of p) s ds a) as [[[s' e] x]|]; reflexivity.
    + intros j r Q D. apply (F (S j) r Q). congruence.
Qed.

Lemma owner_dec ps a : (exists i p, nth_error ps i = Some p /\ owns p a = true) \/ (forall q, In q ps -> owns q a = false).
Proof.
  induction ps as [|p ps [[i [q [N O]]]|IH]].
  - right. intros q [].
  - left. exists (S i), q. auto.
  - destruct (owns p a) eqn:E; [left; exists 0, p; auto|]. right. intros q [<-|I]; auto.
Qed.

(** The custom properties are where the map says *)
Definition customs_ok (m : list (nat * nat)) ds : Prop :=
  forall n i, In (n, i) m -> exists u, nth_error ds i = Some (Custom n u).
Lemma customs_apart m ds e (K : decl A R -> bool) : (forall n u, K (Custom n u) = true) -> apart K ds e -> customs_ok m ds -> customs_ok m e.
Proof. intros C H O n i I. destruct (O n i I) as [u N]. exists u. apply (apart_nth K ds e i _ H N). apply C. Qed.
Lemma lookup_in name m i : lookup name m = Some i -> In (name, i) m.
Proof.
  unfold lookup. destruct (find _ m) as [[n j]|] eqn:E; intros H; [|discriminate]. injection H as <-. apply find_some in E.
  destruct E as [I E]. apply Nat.eqb_eq in E. cbn in *. subst. exact I.
Qed.
Lemma kept_cons (n i : nat) m ds u : nth_error ds i = Some (Custom n u) -> kept_customs ((n, i) :: m) ds = Custom n u :: kept_customs m ds.
Proof. intros N. unfold kept_customs. cbn [flat_map snd]. rewrite N. reflexivity. Qed.
Lemma kept_customs_spec m ds : customs_ok m ds ->
  Forall (fun d => exists n u, d = Custom n u) (kept_customs m ds)
  /\ forall (k b n i : nat), nth_error (combine (map fst m) (seq b (length m))) k = Some (n, i) ->
       i = b + k /\ exists u, nth_error (kept_customs m ds) k = Some (Custom n u).
Proof.
  induction m as [|[n0 i0] m IH]; intros O.
  - split; [constructor|]. intros [|k] b n i H; discriminate H.
  - destruct (O n0 i0 (or_introl eq_refl)) as [u N]. rewrite (kept_cons _ _ _ _ u N).
    destruct IH as [F H]; [intros n i I; exact (O n i (or_intror I))|]. split; [constructor; eauto|].
    intros [|k] b n i E; cbn [map combine seq length nth_error] in E |- *.
    + injection E as <- <-. split; [lia|]. exists u. reflexivity.
    + destruct (H k (S b) n i E) as [-> U]. split; [lia|]. exact U.
Qed.
Lemma customs_ok_reset m ds d : customs_ok m ds ->
  customs_ok (combine (map fst m) (seq 0 (length m))) (kept_customs m ds ++ [d]).
Proof.
  intros O n i I. apply In_nth_error in I. destruct I as [k N]. destruct (proj2 (kept_customs_spec m ds O) k 0 n i N) as [-> [u U]].
  exists u. cbn. rewrite nth_error_app1; [exact U|]. apply nth_error_Some. rewrite U. discriminate.
Qed.

(** The block and the handler [p] alone go through the same states *)
Definition together ps i p (s : state A R Cond) (t : state A R Cond) : Prop :=
  linked ps (handlers s) (decls s) /\ customs_ok (customs s) (decls s)
  /\ customs t = [] /\ direction t = None /\ bidi t = None
  /\ exists u u', nth_error (handlers s) i = Some (Running (of p) u) /\ handlers t = [Running (of p) u']
       /\ like p u (decls s) u' (decls t).

Lemma together_apart ps i p s t s2 : together ps i p s t -> nth_error ps i = Some p ->
  handlers s2 = handlers s -> customs_ok (customs s2) (decls s2) ->
  (forall q, In q ps -> apart (kept (owns q)) (decls s) (decls s2)) -> together ps i p s2 t.
Proof.
  intros [L [O [C [D [B [u [u' [N [T Q]]]]]]]]] P E O2 F. split; [rewrite E; exact (linked_apart _ _ _ _ L F)|].
  split; [exact O2|]. repeat (split; [assumption|]). exists u, u'. rewrite E. split; [exact N|]. split; [exact T|].
  apply (like_apart p u (decls s) u' (decls t) _ Q). apply F. exact (nth_error_In _ _ P).
Qed.

Lemma try_single p u ds a : try [Running (of p) u] ds a = match hhandle (of p) u ds a with Some (s', e, x) => Some ([Running (of p) s'], e, x) | None => None end.
Proof. cbn [try]. destruct (hhandle (of p) u ds a) as [[[s' e] x]|]; reflexivity. Qed.

Lemma linked_shape ps hs ds : linked ps hs ds -> forall j q, nth_error ps j = Some q -> exists s, nth_error hs j = Some (Running (of q) s).
Proof. intros [_ H] j q N. destruct (H j q N) as [s [E _]]. eauto. Qed.

Lemma plain_together ps i p s t a : separate ps -> nth_error ps i = Some p -> together ps i p s t ->
  let (s2, x) := handle s (Plain a) in
  if owns p a then let (t2, y) := handle t (Plain a) in together ps i p s2 t2 /\ filter (fun r => mine (owns p) (snd r)) x = y
  else together ps i p s2 t /\ filter (fun r => mine (owns p) (snd r)) x = [].
Proof.
  intros S P T. pose proof T as [L [O [C [D [B [u [u' [N [Et Q]]]]]]]]]. cbn [BlockModel.handle].
  destruct (owner_dec ps a) as [[j [q [Nq Oq]]]|F].
  - destruct (proj2 L j q Nq) as [v [Nv [v' [dv Qv]]]].
    assert (F : forall k r, nth_error ps k = Some r -> k <> j -> owns r a = false).
    { intros k r Nr Dk. destruct (owns r a) eqn:E; [|reflexivity]. destruct Dk. exact (S k j r q a Nr Nq E Oq). }
    assert (J : j < length (handlers s)) by (apply nth_error_Some; rewrite Nv; discriminate).
    destruct (Nat.eq_dec i j) as [<-|Dij].
    + rewrite P in Nq. injection Nq as <-. rewrite Oq. clear v Nv v' dv Qv.
      rewrite (try_owner ps (handlers s) (decls s) a i p u (proj1 L) (linked_shape _ _ _ L) P N F).
      assert (Hp := handles p u (decls s) u' (decls t) a Q Oq). rewrite Et, try_single.
      destruct (hhandle (of p) u (decls s) a) as [[[w e] x]|], (hhandle (of p) u' (decls t) a) as [[[w' e'] x']|]; try contradiction.
      * destruct Hp as [Hl [Ha [Hx Hm]]]. cbn [set_decls]. split; [|rewrite filter_all by exact Hm; exact Hx].
        split; [split; [cbn; rewrite put_length by exact J; apply (proj1 L)|]|split; [|repeat (split; [assumption|])]].
        -- intros k r Nr. cbn. rewrite put_nth by exact J. destruct (Nat.eqb i k) eqn:E.
           ++ apply Nat.eqb_eq in E. subst k. rewrite P in Nr. injection Nr as <-. eauto 6.
           ++ apply Nat.eqb_neq in E. destruct (proj2 L k r Nr) as [z [Nz [z' [dz Qz]]]]. exists z. split; [exact Nz|]. exists z', dz.
              apply (like_apart r _ _ _ _ _ Qz). exact (mine_apart ps i k p r _ _ S P Nr E Ha).
        -- cbn. refine (customs_apart _ _ _ _ _ Ha O). reflexivity.
        -- exists w, w'. cbn. rewrite put_nth, Nat.eqb_refl by exact J. auto.
      * cbn [set_decls]. split; [|reflexivity].
        assert (Ap : forall r k, nth_error ps k = Some r -> k <> i -> apart (kept (owns r)) (decls s) (decls s ++ [Plain a])).
        { intros r k Nr Dk. apply apart_app. constructor; [|constructor]. cbn. exact (F k r Nr Dk). }
        split; [split; [exact (proj1 L)|]|split; [|repeat (split; [assumption|])]].
        -- intros k r Nr. cbn. destruct (Nat.eq_dec k i) as [->|Dk]; [rewrite P in Nr; injection Nr as <-; eauto 6|].
           destruct (proj2 L k r Nr) as [z [Nz [z' [dz Qz]]]]. exists z. split; [exact Nz|]. exists z', dz. exact (like_apart r _ _ _ _ _ Qz (Ap r k Nr Dk)).
        -- cbn. refine (customs_apart _ _ _ (fun d => negb (mine (owns p) d)) _ _ O); [reflexivity|]. apply apart_app. constructor; [|constructor]. cbn. rewrite Oq. reflexivity.
        -- exists u, u'. auto.
    + rewrite (F i p P Dij).
      rewrite (try_owner ps (handlers s) (decls s) a j q v (proj1 L) (linked_shape _ _ _ L) Nq Nv F).
      pose proof (handles q v (decls s) v' dv a Qv Oq) as Hq.
      destruct (hhandle (of q) v (decls s) a) as [[[w e] x]|], (hhandle (of q) v' dv a) as [[[w' e'] x']|]; try contradiction.
      * destruct Hq as [Hl [Ha [Hx Hm]]]. cbn [set_decls]. split; [|exact (mine_other ps j i q p x S Nq P (not_eq_sym Dij) Hm)].
        split; [split; [cbn; rewrite put_length by exact J; apply (proj1 L)|]|split; [|repeat (split; [assumption|])]].
        -- intros k r Nr. cbn. rewrite put_nth by exact J. destruct (Nat.eqb j k) eqn:E.
           ++ apply Nat.eqb_eq in E. subst k. rewrite Nq in Nr. injection Nr as <-. eauto 6.
           ++ apply Nat.eqb_neq in E. destruct (proj2 L k r Nr) as [z [Nz [z' [dz Qz]]]]. exists z. split; [exact Nz|]. exists z', dz.
              apply (like_apart r _ _ _ _ _ Qz). exact (mine_apart ps j k q r _ _ S Nq Nr E Ha).
        -- cbn. refine (customs_apart _ _ _ _ _ Ha O). reflexivity.
        -- exists u, u'. cbn. rewrite put_nth by exact J. replace (Nat.eqb j i) with false by (symmetry; apply Nat.eqb_neq; auto).
           split; [exact N|]. split; [exact Et|]. apply (like_apart p _ _ _ _ _ Q). exact (mine_apart ps j i q p _ _ S Nq P (not_eq_sym Dij) Ha).
      * cbn [set_decls]. split; [|reflexivity]. 
        assert (Ap : forall r k, nth_error ps k = Some r -> k <> j -> apart (kept (owns r)) (decls s) (decls s ++ [Plain a])).
        { intros r k Nr Dk. apply apart_app. constructor; [|constructor]. cbn. exact (F k r Nr Dk). }
        split; [split; [exact (proj1 L)|]|split; [|repeat (split; [assumption|])]].
        -- intros k r Nr. cbn. destruct (Nat.eq_dec k j) as [->|Dk]; [rewrite Nq in Nr; injection Nr as <-; exists v; eauto|].
           destruct (proj2 L k r Nr) as [z [Nz [z' [dz Qz]]]]. exists z. split; [exact Nz|]. exists z', dz. exact (like_apart r _ _ _ _ _ Qz (Ap r k Nr Dk)).
        -- cbn. refine (customs_apart _ _ _ (fun d => negb (mine (owns q) d)) _ _ O); [reflexivity|]. apply apart_app. constructor; [|constructor]. cbn. rewrite Oq. reflexivity.
        -- exists u, u'. split; [exact N|]. split; [exact Et|]. exact (like_apart p _ _ _ _ _ Q (Ap p i P Dij)).
  - rewrite (try_none ps _ _ a L F). rewrite (F p (nth_error_In _ _ P)). cbn [set_decls]. split; [|reflexivity].
    apply (together_apart ps i p s t _ T P); [reflexivity| |].
    + cbn. refine (customs_apart _ _ _ (fun d => match d with Custom _ _ => true | _ => false end) _ _ O); [reflexivity|]. apply apart_app. repeat constructor.
    + intros q I. cbn. apply apart_app. constructor; [|constructor]. cbn. exact (F q I).
Qed.

Lemma custom_together ps i p s t name u : nth_error ps i = Some p -> together ps i p s t ->
  let (s2, x) := handle_custom s name u in together ps i p s2 t /\ filter (fun r => mine (owns p) (snd r)) x = [].
Proof.
  intros P T. pose proof T as [L [O _]]. unfold BlockModel.handle_custom. destruct (unused name); [split; [exact T|reflexivity]|].
  assert (X : forall x w, custom_fallbacks ctx raw_fallbacks name u = (x, w) -> filter (fun r : place Cond * decl A R => mine (owns p) (snd r)) x = []).
  { unfold custom_fallbacks. intros x w E. assert (M : forall l : list (Cond * R), filter (fun r : place Cond * decl A R => mine (owns p) (snd r)) (map (fun cu => (If (fst cu), Custom name (snd cu))) l) = []).
    { induction l as [|c l IH]; [reflexivity|exact IH]. }
    destruct ctx; [|destruct (raw_fallbacks u); injection E as <- <-; reflexivity|injection E as <- <-; reflexivity|destruct (raw_fallbacks u); injection E as <- <-; reflexivity].
    destruct (raw_fallbacks u). injection E as <- <-. apply M. }
  destruct (lookup name (customs s)) as [k|] eqn:E.
  - destruct (same_custom req (decls s) k name u); [split; [exact T|reflexivity]|].
    destruct (O name k (lookup_in _ _ _ E)) as [w N]. assert (K : k < length (decls s)) by (apply nth_error_Some; rewrite N; discriminate).
    destruct (custom_fallbacks ctx raw_fallbacks name u) as [x u'] eqn:Ef. split; [|exact (X _ _ eq_refl)].
    apply (together_apart ps i p s t _ T P); [reflexivity| |].
    + intros n j I. cbn in *. destruct (O n j I) as [z Nz]. rewrite replace_nth by exact K. destruct (Nat.eqb k j) eqn:Ek.
      * apply Nat.eqb_eq in Ek. subst j. rewrite N in Nz. injection Nz as <- <-. eauto.
      * eauto.
    + intros q I. apply (apart_replace _ _ _ _ _ N); reflexivity.
  - destruct (custom_fallbacks ctx raw_fallbacks name u) as [x u'] eqn:Ef. split; [|exact (X _ _ eq_refl)].
    apply (together_apart ps i p s t _ T P); [reflexivity| |].
    + intros n j I. cbn in *. apply in_app_or in I. destruct I as [I|[I|[]]].
      * destruct (O n j I) as [z Nz]. exists z. rewrite nth_error_app1; [exact Nz|]. apply nth_error_Some. rewrite Nz. discriminate.
      * injection I as <- <-. exists u'. rewrite nth_error_app2 by lia. rewrite Nat.sub_diag. reflexivity.
    + intros q I. apply apart_app. repeat constructor.
Qed.

Lemma filter_customs O l kw : Forall (fun d : decl A R => exists n u, d = Custom n u) l -> filter (kept O) (l ++ [All kw]) = [All kw].
Proof. induction 1 as [|d l [n [u ->]] F IH]; [reflexivity|exact IH]. Qed.
Lemma reset_together ps i p s t kw : nth_error ps i = Some p -> together ps i p s t -> together ps i p (reset s kw) (reset t kw).
Proof.
  intros P [L [O [C [D [B [u [u' [N [Et Q]]]]]]]]].
  split; [split; [cbn; rewrite map_length; exact (proj1 L)|]|split; [exact (customs_ok_reset _ _ _ O)|]].
  - intros j q Nq. destruct (proj2 L j q Nq) as [v [Nv _]]. exists (hstart (of q)). cbn. rewrite (map_nth_error _ _ _ Nv). split; [reflexivity|].
    do 2 eexists. apply like_start.
  - cbn. rewrite C. repeat (split; [assumption || reflexivity|]). exists (hstart (of p)), (hstart (of p)). rewrite (map_nth_error _ _ _ N), Et.
    split; [reflexivity|]. split; [reflexivity|]. cbn [kept_customs flat_map app].
    pose proof (like_start p (kept_customs (customs s) (decls s) ++ [All kw])) as H.
    rewrite (filter_customs (owns p) (kept_customs (customs s) (decls s)) kw) in H by exact (proj1 (kept_customs_spec _ _ O)). exact H.
Qed.

(** ** The whole block *)
Lemma handle_together ps i p s t d : separate ps -> nth_error ps i = Some p -> together ps i p s t ->
  let (s2, x) := handle s d in
  if kept (owns p) d then let (t2, y) := handle t d in together ps i p s2 t2 /\ filter (fun r => mine (owns p) (snd r)) x = y
  else together ps i p s2 t /\ filter (fun r => mine (owns p) (snd r)) x = [].
Proof.
  intros S P T. pose proof T as [L [O [C [D [B [u [u' [N [Et Q]]]]]]]]]. destruct d as [a|v|v|kw|k w|name w]; cbn [kept].
  - apply plain_together; assumption.
  - split; [|reflexivity]. split; [exact L|]. split; [exact O|]. repeat (split; [assumption|]). eauto 7.
  - split; [|reflexivity]. split; [exact L|]. split; [exact O|]. repeat (split; [assumption|]). eauto 7.
  - split; [|reflexivity]. apply reset_together; assumption.
  - split; [|reflexivity]. cbn [BlockModel.handle]. apply (together_apart ps i p s t _ T P); [reflexivity| |].
    + cbn. refine (customs_apart _ _ _ (fun d => match d with Custom _ _ => true | _ => false end) _ _ O); [reflexivity|]. apply apart_app. repeat constructor.
    + intros q I. cbn. apply apart_app. repeat constructor.
  - apply custom_together; assumption.
Qed.
Lemma handle_all_together ps i p l : separate ps -> nth_error ps i = Some p -> forall s t, together ps i p s t ->
  let (s2, x) := handle_all s l in let (t2, y) := handle_all t (filter (kept (owns p)) l) in
  together ps i p s2 t2 /\ filter (fun r => mine (owns p) (snd r)) x = y.
Proof.
  intros S P. induction l as [|d l IH]; intros s t T; [split; [exact T|reflexivity]|]. cbn [BlockModel.handle_all filter].
  pose proof (handle_together ps i p s t d S P T) as H. destruct (handle s d) as [s2 x]. destruct (kept (owns p) d).
  - cbn [BlockModel.handle_all]. destruct (handle t d) as [t2 y]. destruct H as [T2 X]. specialize (IH s2 t2 T2).
    destruct (handle_all s2 l) as [s3 x3]. destruct (handle_all t2 (filter (kept (owns p)) l)) as [t3 y3]. destruct IH as [T3 X3].
    split; [exact T3|]. rewrite filter_app, X, X3. reflexivity.
  - destruct H as [T2 X]. specialize (IH s2 t T2). destruct (handle_all s2 l) as [s3 x3].
    destruct (handle_all t (filter (kept (owns p)) l)) as [t3 y3]. destruct IH as [T3 X3].
    split; [exact T3|]. rewrite filter_app, X, X3. reflexivity.
Qed.

Lemma separate_tail p ps : separate (p :: ps) -> separate ps.
Proof. intros S i j q r a Q1 Q2 O1 O2. specialize (S (Datatypes.S i) (Datatypes.S j) q r a Q1 Q2 O1 O2). lia. Qed.
Lemma linked_tail p ps h hs ds : linked (p :: ps) (h :: hs) ds -> linked ps hs ds.
Proof. intros [L H]. split; [injection L as L; exact L|]. intros j q N. exact (H (S j) q N). Qed.
Lemma apart_tail p ps ds e : separate (p :: ps) -> apart (fun d => negb (mine (owns p) d)) ds e -> forall q, In q ps -> apart (kept (owns q)) ds e.
Proof.
  intros S F q I. apply In_nth_error in I. destruct I as [j N]. exact (mine_apart (p :: ps) 0 (Datatypes.S j) p q ds e S eq_refl N (Nat.neq_0_succ j) F).
Qed.
(** The handlers that come later change nothing of another one *)
Lemma finish_others ps : forall hs ds, separate ps -> linked ps hs ds ->
  let '(hs', ds', x) := finish_all hs ds in
  ready ps hs'
  /\ forall O, (forall q a, In q ps -> owns q a = true -> O a = false) ->
       apart (kept O) ds ds' /\ filter (fun r : place Cond * decl A R => mine O (snd r)) x = [].
Proof.
  induction ps as [|p ps IH]; intros hs ds S L.
  - destruct hs; [|discriminate (proj1 L)]. split; [constructor|]. intros O _. split; [apply apart_refl|reflexivity].
  - destruct hs as [|h hs]; [discriminate (proj1 L)|]. destruct (proj2 L 0 p eq_refl) as [s [N [s' [ds' Q]]]]. injection N as ->. cbn [finish_all].
    pose proof (finishes p s ds s' ds' Q) as F. destruct (hfinish (of p) s ds) as [[t e] x]. destruct (hfinish (of p) s' ds') as [[t' e'] x'].
    destruct F as [Hl [Ha [Hx [Hm Hi]]]]. specialize (IH hs e (separate_tail _ _ S)).
    pose proof (linked_apart _ _ _ _ (linked_tail _ _ _ _ _ L) (apart_tail _ _ _ _ S Ha)) as L2. specialize (IH L2).
    destruct (finish_all hs e) as [[hs' ds2] y]. destruct IH as [R1 I1]. split; [constructor; [eauto|exact R1]|]. intros O HO.
    destruct (I1 O) as [A1 F1]; [intros q a I; apply HO; right; exact I|]. split.
    + refine (apart_trans _ _ _ _ _ A1). refine (apart_impl _ _ _ _ _ Ha). intros d M. apply negb_false_iff in M.
      destruct d as [a| | | | |]; cbn in *; try discriminate. exact (HO p a (or_introl eq_refl) M).
    + rewrite filter_app, F1, app_nil_r. clear - Hm HO. induction Hm as [|[pl d] x M F IH]; [reflexivity|]. cbn in *.
      destruct d as [a| | | | |]; cbn in *; try discriminate. rewrite (HO p a (or_introl eq_refl) M). exact IH.
Qed.
Lemma separate_owner ps i p q : separate ps -> nth_error ps i = Some p -> (forall j, nth_error ps j = Some q -> j <> i) ->
  In q ps -> forall a, owns q a = true -> owns p a = false.
Proof.
  intros S P D I a O. destruct (owns p a) eqn:E; [|reflexivity]. apply In_nth_error in I. destruct I as [j N].
  destruct (D j N). exact (S j i q p a N P O E).
Qed.
Lemma finish_together ps : forall i p hs ds s s' ds', separate ps -> nth_error ps i = Some p -> linked ps hs ds ->
  nth_error hs i = Some (Running (of p) s) -> like p s ds s' ds' ->
  let '(_, e, x) := finish_all hs ds in let '(_, e', x') := hfinish (of p) s' ds' in
  filter (kept (owns p)) e = e' /\ filter (fun r : place Cond * decl A R => mine (owns p) (snd r)) x = x'.
Proof.
  induction ps as [|q ps IH]; intros i p hs ds s s' ds' S P L N Q; [destruct i; discriminate P|].
  destruct hs as [|h hs]; [discriminate (proj1 L)|]. destruct i as [|i].
  - cbn in P, N. injection P as ->. injection N as ->. cbn [finish_all].
    pose proof (finishes p s ds s' ds' Q) as F. destruct (hfinish (of p) s ds) as [[t e] x]. destruct (hfinish (of p) s' ds') as [[t' e'] x'].
    destruct F as [Hl [Ha [Hx [Hm Hi]]]].
    pose proof (linked_apart _ _ _ _ (linked_tail _ _ _ _ _ L) (apart_tail _ _ _ _ S Ha)) as L2.
    pose proof (finish_others ps hs e (separate_tail _ _ S) L2) as F2. destruct (finish_all hs e) as [[hs' ds2] y].
    destruct F2 as [_ F2]. destruct (F2 (owns p)) as [A1 F1].
    { intros r a I O. apply In_nth_error in I. destruct I as [j Nj]. destruct (owns p a) eqn:E; [|reflexivity].
      discriminate (S 0 (Datatypes.S j) p r a eq_refl Nj E O). }
    split; [rewrite (apart_filter _ _ _ A1); symmetry; exact (like_filter p _ _ _ _ Hl)|].
    rewrite filter_app, F1, app_nil_r, filter_all by exact Hm. exact Hx.
  - destruct (proj2 L 0 q eq_refl) as [v [Nv [v' [dv Qv]]]]. cbn in Nv, N, P. injection Nv as ->. cbn [finish_all].
    pose proof (finishes q v ds v' dv Qv) as F. destruct (hfinish (of q) v ds) as [[t e] x]. destruct (hfinish (of q) v' dv) as [[t' e'] x'].
    destruct F as [Hl [Ha [Hx [Hm Hi]]]].
    pose proof (linked_apart _ _ _ _ (linked_tail _ _ _ _ _ L) (apart_tail _ _ _ _ S Ha)) as L2.
    pose proof (like_apart p _ _ _ _ _ Q (apart_tail _ _ _ _ S Ha p (nth_error_In _ _ P))) as Q2.
    specialize (IH i p hs e s s' ds' (separate_tail _ _ S) P L2 N Q2). destruct (finish_all hs e) as [[hs' ds2] y].
    destruct (hfinish (of p) s' ds') as [[w' e2] y']. destruct IH as [E1 E2]. split; [exact E1|].
    rewrite filter_app, E2, (mine_other (q :: ps) 0 (Datatypes.S i) q p x S eq_refl P (Nat.neq_0_succ i) Hm). reflexivity.
Qed.

Lemma ready_linked ps hs : ready ps hs -> linked ps hs [].
Proof.
  intros H. split; [induction H as [|p h ps hs _ H IH]; [reflexivity|cbn; rewrite IH; reflexivity]|]. induction H as [|p h ps hs [s [-> I]] H IH]; intros j q N; [destruct j; discriminate N|].
  destruct j as [|j]; [|exact (IH j q N)]. cbn in N. injection N as <-. exists s. split; [reflexivity|]. exists s, []. apply like_idle. exact I.
Qed.
Lemma ready_nth ps hs i p : ready ps hs -> nth_error ps i = Some p -> exists s, nth_error hs i = Some (Running (of p) s) /\ idle p s.
Proof.
  intros H. revert i. induction H as [|q h ps hs [s [-> I]] H IH]; intros i N; [destruct i; discriminate N|].
  destruct i as [|i]; [|exact (IH i N)]. cbn in N. injection N as <-. exists s. split; [reflexivity|exact I].
Qed.
(** The declarations of one handler, and its rules, are those that it makes alone *)
Theorem minify_together ps hs i p s l : separate ps -> ready ps hs -> nth_error ps i = Some p ->
  nth_error hs i = Some (Running (of p) s) -> idle p s ->
  let '(_, ds, x) := minify hs l in
  let '(_, ds', x') := minify [Running (of p) s] (filter (kept (owns p)) l) in
  filter (kept (owns p)) ds = ds' /\ filter (fun r => mine (owns p) (snd r)) x = x'.
Proof.
  intros S Y P N Id. unfold BlockModel.minify.
  assert (T : together ps i p (begin hs) (begin [Running (of p) s])).
  { split; [exact (ready_linked ps hs Y)|]. split; [intros n k []|]. repeat (split; [reflexivity|]). exists s, s. split; [exact N|].
    split; [reflexivity|]. apply like_idle. exact Id. }
  pose proof (handle_all_together ps i p l S P _ _ T) as H. destruct (handle_all (begin hs) l) as [s2 x].
  destruct (handle_all (begin [Running (of p) s]) (filter (kept (owns p)) l)) as [t2 y].
  destruct H as [[L [_ [_ [D [B [u [u' [Nu [Et Q]]]]]]]]] X]. unfold finish. rewrite Et, D, B. cbn [opt app]. rewrite app_nil_r. cbn [finish_all].
  assert (Ap : forall O, apart (kept O) (decls s2) (decls s2 ++ opt Direction (direction s2) ++ opt Bidi (bidi s2))).
  { intros O. apply apart_app. destruct (direction s2), (bidi s2); repeat constructor. }
  pose proof (finish_together ps i p (handlers s2) _ u u' (decls t2) S P (linked_apart _ _ _ _ L (fun q _ => Ap (owns q))) Nu (like_apart p _ _ _ _ _ Q (Ap _))) as F.
  destruct (finish_all (handlers s2) _) as [[hs' e] z]. destruct (hfinish (of p) u' (decls t2)) as [[w e'] z']. destruct F as [F1 F2].
  split; [exact F1|]. rewrite filter_app, X, F2, app_nil_r. reflexivity.
Qed.
(** And then the handlers are ready for the next block *)
Theorem minify_ready ps hs l : separate ps -> ready ps hs -> ready ps (fst (fst (minify hs l))).
Proof.
  destruct ps as [|p0 ps0] eqn:Eps.
  { intros _ Y. inversion Y; subst. unfold BlockModel.minify.
    assert (H : forall s : state A R Cond, handlers s = [] -> handlers (fst (handle_all s l)) = []).
    { induction l as [|d l' IH]; intros s E; [exact E|]. cbn [BlockModel.handle_all].
      assert (H : handlers (fst (handle s d)) = []).
      { destruct d as [a|v|v|kw|k w|name w]; cbn [BlockModel.handle]; try (rewrite E; reflexivity); try (cbn; rewrite E; reflexivity); try exact E. unfold BlockModel.handle_custom.
        destruct (unused name); [exact E|]. destruct (lookup _ _); [destruct (same_custom _ _ _ _ _); [exact E|]|]; destruct (custom_fallbacks _ _ _ _); exact E. }
      destruct (handle s d) as [s1 x]. specialize (IH s1 H). destruct (handle_all s1 l') as [s3 y]. exact IH. }
    specialize (H (begin []) eq_refl). destruct (handle_all (begin []) l) as [s x]. cbn in H. unfold finish. rewrite H. constructor. }
  rewrite <- Eps. intros S Y. destruct (ready_nth ps hs 0 p0 Y) as [s [N Id]]; [rewrite Eps; reflexivity|]. unfold BlockModel.minify.
  assert (P : nth_error ps 0 = Some p0) by (rewrite Eps; reflexivity).
  assert (T : together ps 0 p0 (begin hs) (begin [Running (of p0) s])).
  { split; [exact (ready_linked ps hs Y)|]. split; [intros n k []|]. repeat (split; [reflexivity|]). exists s, s. split; [exact N|].
    split; [reflexivity|]. apply like_idle. exact Id. }
  pose proof (handle_all_together ps 0 p0 l S P _ _ T) as H. destruct (handle_all (begin hs) l) as [s2 x].
  destruct (handle_all (begin [Running (of p0) s]) (filter (kept (owns p0)) l)) as [t2 y]. destruct H as [[L _] _]. unfold finish.
  assert (Ap : forall O, apart (kept O) (decls s2) (decls s2 ++ opt Direction (direction s2) ++ opt Bidi (bidi s2))).
  { intros O. apply apart_app. destruct (direction s2), (bidi s2); repeat constructor. }
  pose proof (finish_others ps (handlers s2) _ S (linked_apart _ _ _ _ L (fun q _ => Ap (owns q)))) as F.
  destruct (finish_all (handlers s2) _) as [[hs' e] z]. exact (proj1 F).
Qed.
End Parts.
