(** * [direction], [unicode-bidi], [all] and custom properties in a block *)
From Coq Require Import List Bool PeanoNat Lia.
From Verif Require Import BlockModel BlockSpec BlockProofs BlockIndexProofs.
Import ListNotations.

Section Rest.
Context {A R Cond : Type}.
Variable ctx : context.
Variable unused : nat -> bool.
Variable req : R -> R -> bool.
Variable raw_fallbacks : R -> list (Cond * R) * R.
Notation handle := (handle ctx unused req raw_fallbacks).
Notation handle_all := (handle_all ctx unused req raw_fallbacks).
Notation minify := (minify ctx unused req raw_fallbacks).
Notation handle_custom := (handle_custom ctx unused req raw_fallbacks).
Notation rules := (rules A R Cond).
Implicit Types (ps : list (part A R Cond)) (p q : part A R Cond) (hs : list (running A R Cond)) (ds : list (decl A R)).

Definition rest (d : decl A R) : bool := match d with Plain _ => false | _ => true end.
Definition moved ds (m : list (nat * nat)) : list (nat * nat) := map (fun c => (fst c, at_ rest ds (snd c))) m.
(** The same block without ordinary declarations and without handlers *)
Definition bare (s t : state A R Cond) : Prop :=
  handlers t = [] /\ direction t = direction s /\ bidi t = bidi s
  /\ decls t = filter rest (decls s) /\ customs t = moved (decls s) (customs s).

Lemma lookup_moved name ds m : lookup name (moved ds m) = match lookup name m with Some i => Some (at_ rest ds i) | None => None end.
Proof.
  unfold lookup, moved. induction m as [|[n i] m IH]; [reflexivity|]. cbn. destruct (Nat.eqb n name); [reflexivity|exact IH].
Qed.
Lemma moved_ext ds e m : (forall n i, In (n, i) m -> at_ rest e i = at_ rest ds i) -> moved e m = moved ds m.
Proof. intros H. apply map_ext_in. intros [n i] I. cbn [fst snd]. rewrite (H n i I). reflexivity. Qed.
Lemma customs_lt m ds n i : customs_ok m ds -> In (n, i) m -> i < length ds.
Proof. intros O I. destruct (O n i I) as [u N]. apply nth_error_Some. rewrite N. discriminate. Qed.
Lemma kept_moved m ds : customs_ok m ds -> kept_customs (moved ds m) (filter rest ds) = kept_customs m ds.
Proof.
  unfold kept_customs, moved. induction m as [|[n i] m IH]; intros O; [reflexivity|]. cbn [map flat_map fst snd].
  destruct (O n i (or_introl eq_refl)) as [u N]. rewrite (at_nth rest ds i _ N eq_refl), N, IH; [reflexivity|].
  intros n' i' I. exact (O n' i' (or_intror I)).
Qed.
Lemma filter_id (f : decl A R -> bool) l : Forall (fun d => f d = true) l -> filter f l = l.
Proof. apply filter_all. Qed.
Lemma kept_rest m ds kw : customs_ok m ds -> Forall (fun d => rest d = true) (kept_customs m ds ++ [All kw]).
Proof.
  intros O. apply Forall_app. split; [|repeat constructor]. eapply Forall_impl; [|exact (proj1 (kept_customs_spec m ds O))].
  intros d [n [u ->]]. reflexivity.
Qed.
Lemma kept_length m ds : customs_ok m ds -> length (kept_customs m ds) = length m.
Proof.
  induction m as [|[n i] m IH]; intros O; [reflexivity|]. destruct (O n i (or_introl eq_refl)) as [u N]. rewrite (kept_cons _ _ _ _ u N). cbn.
  rewrite IH; [reflexivity|]. intros n' i' I. exact (O n' i' (or_intror I)).
Qed.
Lemma moved_reset m ds kw : customs_ok m ds ->
  moved (kept_customs m ds ++ [All kw]) (combine (map fst m) (seq 0 (length m))) = combine (map fst m) (seq 0 (length m)).
Proof.
  intros O. rewrite <- (map_id (combine _ _)) at 2. apply map_ext_in. intros [n i] I. cbn [fst snd]. f_equal. apply at_all; [exact (kept_rest m ds kw O)|].
  apply in_combine_r in I. apply in_seq in I. rewrite app_length, (kept_length m ds O). lia.
Qed.

(** Ordinary declarations change nothing of the rest *)
Lemma try_rest ps hs ds a : separate ps -> linked ps hs ds ->
  match try hs ds a with
  | Some (hs', e, x) => linked ps hs' e /\ apart rest ds e /\ filter (fun r => rest (snd r)) x = []
  | None => linked ps hs (ds ++ [Plain a])
  end.
Proof.
  intros S L. destruct (owner_dec ps a) as [[j [q [Nq Oq]]]|F].
  - destruct (proj2 L j q Nq) as [v [Nv [v' [dv Qv]]]].
    assert (F : forall k r, nth_error ps k = Some r -> k <> j -> owns r a = false).
    { intros k r Nr Dk. destruct (owns r a) eqn:E; [|reflexivity]. destruct Dk. exact (S k j r q a Nr Nq E Oq). }
    rewrite (try_owner ps hs ds a j q v (proj1 L) (linked_shape _ _ _ L) Nq Nv F).
    pose proof (handles q v ds v' dv a Qv Oq) as Hq.
    assert (J : j < length hs) by (apply nth_error_Some; rewrite Nv; discriminate).
    destruct (hhandle (of q) v ds a) as [[[w e] x]|], (hhandle (of q) v' dv a) as [[[w' e'] x']|]; try contradiction.
    + destruct Hq as [Hl [Ha [Hx Hm]]]. split; [split; [rewrite put_length by exact J; apply (proj1 L)|]|split].
      * intros k r Nr. rewrite put_nth by exact J. destruct (Nat.eqb j k) eqn:E.
        -- apply Nat.eqb_eq in E. subst k. rewrite Nq in Nr. injection Nr as <-. exists w. split; [reflexivity|eauto].
        -- apply Nat.eqb_neq in E. destruct (proj2 L k r Nr) as [z [Nz [z' [dz Qz]]]]. exists z. split; [exact Nz|]. exists z', dz.
           apply (like_apart r _ _ _ _ _ Qz). exact (mine_apart ps j k q r _ _ S Nq Nr E Ha).
      * refine (apart_impl _ _ _ _ _ Ha). intros d M. apply negb_false_iff in M. destruct d; try discriminate M. reflexivity.
      * clear - Hm. induction Hm as [|[pl d] x M F IH]; [reflexivity|]. cbn in *. destruct d; try discriminate M. exact IH.
    + split; [exact (proj1 L)|]. intros k r Nr. destruct (Nat.eq_dec k j) as [->|Dk]; [rewrite Nq in Nr; injection Nr as <-; exists v; eauto|].
      destruct (proj2 L k r Nr) as [z [Nz [z' [dz Qz]]]]. exists z. split; [exact Nz|]. exists z', dz. apply (like_apart r _ _ _ _ _ Qz).
      apply apart_app. constructor; [exact (F k r Nr Dk)|constructor].
  - rewrite (try_none ps hs ds a L F). apply (linked_apart ps hs ds _ L). intros q I. apply apart_app. constructor; [exact (F q I)|constructor].
Qed.
Lemma bare_apart s t hs e : bare s t -> customs_ok (customs s) (decls s) -> apart rest (decls s) e ->
  bare (set_decls s hs e) t /\ customs_ok (customs s) e.
Proof.
  intros [H [D [B [E C]]]] O Ap. split; [split; [exact H|]; split; [exact D|]; split; [exact B|]; cbn|].
  - split; [rewrite (apart_filter _ _ _ Ap); exact E|]. rewrite C. symmetry. apply moved_ext. intros n i I.
    apply (at_apart rest); [exact Ap|]. apply Nat.lt_le_incl. exact (customs_lt _ _ n i O I).
  - refine (customs_apart _ _ _ rest _ Ap O). reflexivity.
Qed.

Lemma linked_push ps hs ds d : linked ps hs ds -> (forall O, kept O d = false) -> linked ps hs (ds ++ [d]).
Proof. intros L H. apply (linked_apart ps hs ds _ L). intros q _. apply apart_app. constructor; [apply H|constructor]. Qed.

Lemma handle_bare ps s t d : separate ps -> linked ps (handlers s) (decls s) -> customs_ok (customs s) (decls s) -> bare s t ->
  let (s2, x) := handle s d in
  linked ps (handlers s2) (decls s2) /\ customs_ok (customs s2) (decls s2)
  /\ if rest d then let (t2, y) := handle t d in bare s2 t2 /\ filter (fun r => rest (snd r)) x = y
     else bare s2 t /\ filter (fun r => rest (snd r)) x = [].
Proof.
  intros S L O B. pose proof B as [Bh [Bd [Bb [Be Bc]]]]. destruct d as [a|v|v|kw|k w|name w]; cbn [rest BlockModel.handle].
  - pose proof (try_rest ps (handlers s) (decls s) a S L) as T. destruct (try (handlers s) (decls s) a) as [[[hs e] x]|].
    + destruct T as [L2 [Ap X]]. destruct (bare_apart s t hs e B O Ap) as [B2 O2]. split; [exact L2|]. split; [exact O2|]. split; [exact B2|exact X].
    + destruct (bare_apart s t (handlers s) (decls s ++ [Plain a]) B O) as [B2 O2]; [apply apart_app; repeat constructor|].
      split; [exact T|]. split; [exact O2|]. split; [exact B2|reflexivity].
  - split; [exact L|]. split; [exact O|]. split; [|reflexivity]. cbn. repeat (split; [assumption || reflexivity|]). exact Bc.
  - split; [exact L|]. split; [exact O|]. split; [|reflexivity]. cbn. repeat (split; [assumption || reflexivity|]). exact Bc.
  - split; [|split; [exact (customs_ok_reset _ _ _ O)|split; [|reflexivity]]].
    + split; [cbn; rewrite map_length; exact (proj1 L)|]. intros j q Nq. destruct (proj2 L j q Nq) as [v [Nv _]]. exists (hstart (of q)).
      cbn. rewrite (map_nth_error _ _ _ Nv). split; [reflexivity|]. do 2 eexists. apply like_start.
    + split; [cbn; rewrite Bh; reflexivity|]. split; [exact Bd|]. split; [exact Bb|]. cbn [reset customs decls].
      assert (Em : map fst (moved (decls s) (customs s)) = map fst (customs s)) by (unfold moved; rewrite map_map; reflexivity).
      assert (El : length (moved (decls s) (customs s)) = length (customs s)) by (unfold moved; apply map_length).
      split; [rewrite Bc, Be, kept_moved by exact O; symmetry; apply filter_id; exact (kept_rest _ _ kw O)|].
      rewrite Bc, Em, El, moved_reset by exact O. reflexivity.
  - split; [apply linked_push; [exact L|reflexivity]|].
    assert (O2 : customs_ok (customs s) (decls s ++ [Unparsed k w])).
    { refine (customs_apart _ _ _ (fun d => match d with Custom _ _ => true | _ => false end) _ _ O); [reflexivity|]. apply apart_app. repeat constructor. }
    split; [exact O2|]. split; [|reflexivity]. split; [exact Bh|]. split; [exact Bd|]. split; [exact Bb|]. cbn [set_decls customs decls].
    split; [rewrite filter_app, Be; reflexivity|]. rewrite Bc. symmetry. apply moved_ext. intros n i I.
    apply at_app. apply Nat.lt_le_incl. exact (customs_lt _ _ n i O I).
  - unfold BlockModel.handle_custom. destruct (unused name); [split; [exact L|]; split; [exact O|]; split; [exact B|reflexivity]|].
    rewrite Bc, lookup_moved. destruct (lookup name (customs s)) as [i|] eqn:E.
    + destruct (O name i (lookup_in _ _ _ E)) as [z N]. assert (I : i < length (decls s)) by (apply nth_error_Some; rewrite N; discriminate).
      replace (same_custom req (decls t) (at_ rest (decls s) i) name w) with (same_custom req (decls s) i name w)
        by (unfold same_custom; rewrite Be, (at_nth rest _ _ _ N eq_refl), N; reflexivity).
      destruct (same_custom req (decls s) i name w); [split; [exact L|]; split; [exact O|]; split; [exact B|reflexivity]|].
      assert (X : forall x u', custom_fallbacks ctx raw_fallbacks name w = (x, u') -> filter (fun r : place Cond * decl A R => rest (snd r)) x = x).
      { intros x u' F. apply filter_all. revert F. unfold custom_fallbacks.
        assert (M : forall l : list (Cond * R), Forall (fun r : place Cond * decl A R => rest (snd r) = true) (map (fun cu => (If (fst cu), Custom name (snd cu))) l)) by (intros l; induction l; constructor; auto).
        destruct ctx; [|destruct (raw_fallbacks w)| |destruct (raw_fallbacks w)]; try (intros F; injection F as <- <-; constructor).
        destruct (raw_fallbacks w). intros F; injection F as <- <-. apply M. }
      destruct (custom_fallbacks ctx raw_fallbacks name w) as [x u']. specialize (X x u' eq_refl). cbn [set_decls handlers decls customs].
      split; [|split; [|split; [|exact X]]].
      * apply (linked_apart ps _ _ _ L). intros q _. apply (apart_replace _ _ _ _ _ N); reflexivity.
      * intros n j J. cbn in *. destruct (O n j J) as [y Ny]. rewrite replace_nth by exact I. destruct (Nat.eqb i j) eqn:Ek; [|eauto].
        apply Nat.eqb_eq in Ek. subst j. rewrite N in Ny. injection Ny as <- <-. eauto.
      * split; [exact Bh|]. split; [exact Bd|]. split; [exact Bb|]. cbn [set_decls customs decls]. split; [rewrite Be; symmetry; apply (filter_replace rest _ _ _ _ N); reflexivity|].
        rewrite Bc. symmetry. apply moved_ext. intros n j _. apply (at_replace rest _ _ _ _ _ N); reflexivity.
    + assert (X : forall x u', custom_fallbacks ctx raw_fallbacks name w = (x, u') -> filter (fun r : place Cond * decl A R => rest (snd r)) x = x).
      { intros x u' F. apply filter_all. revert F. unfold custom_fallbacks.
        assert (M : forall l : list (Cond * R), Forall (fun r : place Cond * decl A R => rest (snd r) = true) (map (fun cu => (If (fst cu), Custom name (snd cu))) l)) by (intros l; induction l; constructor; auto).
        destruct ctx; [|destruct (raw_fallbacks w)| |destruct (raw_fallbacks w)]; try (intros F; injection F as <- <-; constructor).
        destruct (raw_fallbacks w). intros F; injection F as <- <-. apply M. }
      destruct (custom_fallbacks ctx raw_fallbacks name w) as [x u']. specialize (X x u' eq_refl). cbn [set_decls handlers decls customs].
      split; [apply linked_push; [exact L|reflexivity]|]. split; [|split; [|exact X]].
      * intros n j I. cbn in *. apply in_app_or in I. destruct I as [I|[I|[]]].
        -- destruct (O n j I) as [z Nz]. exists z. rewrite nth_error_app1; [exact Nz|]. apply nth_error_Some. rewrite Nz. discriminate.
        -- injection I as <- <-. exists u'. rewrite nth_error_app2 by lia. rewrite Nat.sub_diag. reflexivity.
      * split; [exact Bh|]. split; [exact Bd|]. split; [exact Bb|]. cbn [set_decls customs decls]. split; [rewrite filter_app, Be; reflexivity|].
        unfold moved. rewrite map_app. cbn [map fst snd]. rewrite Be, at_end. f_equal. symmetry. apply (moved_ext (decls s)).
        intros n i I. apply at_app. apply Nat.lt_le_incl. exact (customs_lt _ _ n i O I).
Qed.
Lemma handle_all_bare ps l : separate ps -> forall s t, linked ps (handlers s) (decls s) -> customs_ok (customs s) (decls s) -> bare s t ->
  let (s2, x) := handle_all s l in let (t2, y) := handle_all t (filter rest l) in
  linked ps (handlers s2) (decls s2) /\ bare s2 t2 /\ filter (fun r => rest (snd r)) x = y.
Proof.
  intros S. induction l as [|d l IH]; intros s t L O B; [split; [exact L|]; split; [exact B|reflexivity]|]. cbn [BlockModel.handle_all filter].
  pose proof (handle_bare ps s t d S L O B) as H. destruct (handle s d) as [s1 x]. destruct H as [L1 [O1 H]]. destruct (rest d).
  - cbn [BlockModel.handle_all]. destruct (handle t d) as [t1 y]. destruct H as [B1 X]. specialize (IH s1 t1 L1 O1 B1).
    destruct (handle_all s1 l) as [s2 x2]. destruct (handle_all t1 (filter rest l)) as [t2 y2]. destruct IH as [L2 [B2 X2]].
    split; [exact L2|]. split; [exact B2|]. rewrite filter_app, X, X2. reflexivity.
  - destruct H as [B1 X]. specialize (IH s1 t L1 O1 B1).
    destruct (handle_all s1 l) as [s2 x2]. destruct (handle_all t (filter rest l)) as [t2 y2]. destruct IH as [L2 [B2 X2]].
    split; [exact L2|]. split; [exact B2|]. rewrite filter_app, X, X2. reflexivity.
Qed.
Lemma finish_rest ps : forall hs ds, separate ps -> linked ps hs ds ->
  let '(_, e, x) := finish_all hs ds in apart rest ds e /\ filter (fun r : place Cond * decl A R => rest (snd r)) x = [].
Proof.
  induction ps as [|p ps IH]; intros hs ds S L.
  - destruct hs; [|discriminate (proj1 L)]. split; [apply apart_refl|reflexivity].
  - destruct hs as [|h hs]; [discriminate (proj1 L)|]. destruct (proj2 L 0 p eq_refl) as [s [N [s' [ds' Q]]]]. injection N as ->. cbn [finish_all].
    pose proof (finishes p s ds s' ds' Q) as F. destruct (hfinish (of p) s ds) as [[t e] x]. destruct (hfinish (of p) s' ds') as [[t' e'] x'].
    destruct F as [Hl [Ha [Hx [Hm Hi]]]]. specialize (IH hs e (separate_tail _ _ S)).
    pose proof (linked_apart _ _ _ _ (linked_tail _ _ _ _ _ L) (apart_tail _ _ _ _ S Ha)) as L2. specialize (IH L2).
    destruct (finish_all hs e) as [[hs' ds2] y]. destruct IH as [A1 F1]. split.
    + refine (apart_trans _ _ _ _ _ A1). refine (apart_impl _ _ _ _ _ Ha). intros d M. apply negb_false_iff in M. destruct d; try discriminate M. reflexivity.
    + rewrite filter_app, F1, app_nil_r. clear - Hm. induction Hm as [|[pl d] x M F IH]; [reflexivity|]. cbn in *. destruct d; try discriminate M. exact IH.
Qed.
(** What is not ordinary goes through the block as if there were no handlers *)
Theorem minify_bare ps hs l : separate ps -> ready ps hs ->
  let '(_, ds, x) := minify hs l in
  let '(_, ds', x') := minify [] (filter rest l) in
  filter rest ds = ds' /\ filter (fun r => rest (snd r)) x = x'.
Proof.
  intros S Y. unfold BlockModel.minify.
  assert (B : bare (begin hs) (begin [])) by (repeat split).
  pose proof (handle_all_bare ps l S (begin hs) (begin []) (ready_linked ps hs Y) (fun n i (I : In (n, i) []) => match I with end) B) as H.
  destruct (handle_all (begin hs) l) as [s x]. destruct (handle_all (begin []) (filter rest l)) as [t y]. destruct H as [L [[Bh [Bd [Bb [Be Bc]]]] X]].
  unfold finish. rewrite Bh, Bd, Bb. cbn [finish_all].
  assert (L2 : linked ps (handlers s) (decls s ++ opt Direction (direction s) ++ opt Bidi (bidi s))).
  { apply (linked_apart ps _ _ _ L). intros q _. apply apart_app. destruct (direction s), (bidi s); repeat constructor. }
  pose proof (finish_rest ps _ _ S L2) as F. destruct (finish_all (handlers s) _) as [[hs' e] z]. destruct F as [Ap Z].
  split; [|rewrite filter_app, X, Z; reflexivity].
  rewrite (apart_filter _ _ _ Ap), filter_app, Be. f_equal. destruct (direction s), (bidi s); reflexivity.
Qed.
End Rest.
