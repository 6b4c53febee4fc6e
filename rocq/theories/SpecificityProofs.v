(** Proofs about specificity. *)
From Coq Require Import ZArith NArith List Bool String Lia.
From Verif Require Import BloomModel SelectorModel SelectorSpec SelectorMatchProofs SelectorBuildProofs.
Import ListNotations.
Local Open Scope N_scope.

(** * Packing *)

Lemma lor_add : forall x y k, y < 2 ^ k -> N.lor (N.shiftl x k) y = x * 2 ^ k + y.
Proof.
  intros x y k H. rewrite <- N.shiftl_mul_pow2.
  assert (D : N.land (N.shiftl x k) y = 0).
  { apply N.bits_inj. intros i. rewrite N.land_spec, N.bits_0.
    destruct (N.lt_ge_cases i k) as [L|L].
    - rewrite N.shiftl_spec_low by exact L. reflexivity.
    - destruct (N.eq_dec y 0) as [->|NZ]; [rewrite N.bits_0; apply andb_false_r|].
      rewrite (N.bits_above_log2 y i); [apply andb_false_r|].
      apply N.lt_le_trans with k; [|exact L]. apply N.log2_lt_pow2; [lia|exact H]. }
  rewrite <- (N.lxor_lor _ _ D). symmetry. apply N.add_nocarry_lxor. exact D.
Qed.

Definition clamp (x : N) : N := N.min x 1023.

Lemma pack_sum : forall s,
  s_pack s = clamp (s_id s) * 1048576 + clamp (s_class s) * 1024 + clamp (s_elem s).
Proof.
  intros s. unfold s_pack, max10, clamp.
  set (a := N.min (s_id s) 1023). set (b := N.min (s_class s) 1023). set (c := N.min (s_elem s) 1023).
  assert (Hb : b <= 1023) by (unfold b; lia). assert (Hc : c <= 1023) by (unfold c; lia).
  assert (E1 : N.lor (N.shiftl a 20) (N.shiftl b 10) = N.shiftl (N.lor (N.shiftl a 10) b) 10).
  { rewrite N.shiftl_lor, N.shiftl_shiftl. reflexivity. }
  rewrite E1, (lor_add _ c 10), (lor_add a b 10).
  - change (2 ^ 10) with 1024. lia.
  - change (2 ^ 10) with 1024. lia.
  - change (2 ^ 10) with 1024. lia.
Qed.

Lemma unpack_sum : forall x y z, x <= 1023 -> y <= 1023 -> z <= 1023 ->
  s_unpack (x * 1048576 + y * 1024 + z) = mks x y z.
Proof.
  intros x y z X Y Z. unfold s_unpack, max10. change 1023 with (N.ones 10).
  rewrite !N.shiftr_div_pow2, !N.land_ones.
  change (2 ^ 20) with 1048576. change (2 ^ 10) with 1024.
  assert (E1 : (x * 1048576 + y * 1024 + z) / 1048576 = x).
  { symmetry. apply N.div_unique with (y * 1024 + z); lia. }
  assert (E2 : (x * 1048576 + y * 1024 + z) / 1024 = x * 1024 + y).
  { symmetry. apply N.div_unique with z; lia. }
  assert (E3 : (x * 1048576 + y * 1024 + z) mod 1024 = z).
  { symmetry. apply N.mod_unique with (x * 1024 + y); lia. }
  assert (E4 : (x * 1024 + y) mod 1024 = y).
  { symmetry. apply N.mod_unique with x; lia. }
  rewrite E1, E2, E3, E4. reflexivity.
Qed.

(** * Saturating agreement with a triple *)

Definition agrees (s : spec3) (t : triple) : Prop :=
  let '(a, b, c) := t in
  clamp (s_id s) = clamp a /\
  (a < 1024 -> s_id s = a /\ clamp (s_class s) = clamp b /\
    (b < 1024 -> s_class s = b /\ clamp (s_elem s) = clamp c /\ (c < 1024 -> s_elem s = c))).

Lemma clamp_add : forall x a y b, clamp x = clamp a -> clamp y = clamp b -> clamp (x + y) = clamp (a + b).
Proof. unfold clamp. intros. lia. Qed.

Lemma agrees_add : forall s t s' t', agrees s t -> agrees s' t' -> agrees (s_add s s') (t_add t t').
Proof.
  intros [i k l] [[a b] c] [i' k' l'] [[a' b'] c']. unfold agrees, s_add, t_add.
  cbn [s_id s_class s_elem]. intros [A B] [A' B']. split; [apply clamp_add; assumption|]. intros L.
  assert (La : a < 1024) by (clear -L; lia). assert (La' : a' < 1024) by (clear -L; lia).
  destruct (B La) as (B1 & B2 & B3). destruct (B' La') as (B1' & B2' & B3'). clear B B' A A'.
  split; [congruence|]. split; [apply clamp_add; assumption|]. intros M.
  assert (Lb : b < 1024) by (clear -M; lia). assert (Lb' : b' < 1024) by (clear -M; lia).
  destruct (B3 Lb) as (C1 & C2 & C3). destruct (B3' Lb') as (C1' & C2' & C3'). clear B3 B3'.
  split; [congruence|]. split; [apply clamp_add; assumption|]. intros K.
  rewrite C3, C3' by (clear -K; lia). reflexivity.
Qed.

Lemma agrees_unit : forall x y z, agrees (mks x y z) (x, y, z).
Proof. intros. unfold agrees. cbn. auto 10. Qed.

Lemma agrees_zero : agrees s_zero (0, 0, 0).
Proof. apply agrees_unit. Qed.

(** A packed value in range. *)
Definition packed (v : N) (t : triple) : Prop :=
  exists x y z, v = x * 1048576 + y * 1024 + z /\ x <= 1023 /\ y <= 1023 /\ z <= 1023 /\
  let '(a, b, c) := t in
  x = clamp a /\ (a < 1024 -> y = clamp b /\ (b < 1024 -> z = clamp c)).

Lemma pack_packed : forall s t, agrees s t -> packed (s_pack s) t.
Proof.
  intros s [[a b] c] A. unfold packed. rewrite pack_sum.
  exists (clamp (s_id s)), (clamp (s_class s)), (clamp (s_elem s)).
  split; [reflexivity|]. unfold agrees, clamp in *.
  split; [lia|]. split; [lia|]. split; [lia|]. destruct A as [A B]. split; [exact A|]. intros L.
  destruct (B L) as (_ & B2 & B3). split; [exact B2|]. intros M. destruct (B3 M) as (_ & C & _). exact C.
Qed.

Lemma unpack_agrees : forall v t, packed v t -> agrees (s_unpack v) t.
Proof.
  intros v [[a b] c] (x & y & z & -> & X & Y & Z & A & B).
  rewrite unpack_sum by assumption. unfold agrees, clamp in *. cbn [s_id s_class s_elem].
  split; [lia|]. intros L. destruct (B L) as [B1 B2]. split; [lia|]. split; [lia|]. intros M.
  specialize (B2 M). split; [lia|]. split; lia.
Qed.

Lemma packed_max : forall v t v' t', packed v t -> packed v' t' -> packed (N.max v v') (t_max t t').
Proof.
  intros v [[a b] c] v' [[a' b'] c'] (x & y & z & E & X & Y & Z & A & B) (x' & y' & z' & E' & X' & Y' & Z' & A' & B').
  unfold clamp in *. unfold t_max, t_cmp.
  assert (M : (v <= v' /\ N.max v v' = v') \/ (v' < v /\ N.max v v' = v)) by lia.
  assert (P : forall p, packed v p -> packed v' p -> packed (N.max v v') p).
  { intros p P1 P2. destruct M as [[_ ->]|[_ ->]]; assumption. }
  destruct (a ?= a') eqn:CA; [apply N.compare_eq in CA; subst a'| |].
  - destruct (b ?= b') eqn:CB; [apply N.compare_eq in CB; subst b'| |].
    + destruct (c ?= c') eqn:CC; [apply N.compare_eq in CC; subst c'| |].
      * apply P; [exists x, y, z|exists x', y', z']; unfold clamp; auto 10.
      * rewrite N.compare_lt_iff in CC. destruct M as [[L ->]|[L ->]].
        -- exists x', y', z'. unfold clamp; auto 10.
        -- exists x, y, z. unfold clamp. do 5 (split; [assumption|]). intros La. destruct (B La) as [B1 B2].
           destruct (B' La) as [B1' B2']. split; [exact B1|]. intros Lb. specialize (B2 Lb). specialize (B2' Lb). lia.
      * rewrite N.compare_gt_iff in CC. destruct M as [[L ->]|[L ->]].
        -- exists x', y', z'. unfold clamp. do 5 (split; [assumption|]). intros La. destruct (B La) as [B1 B2].
           destruct (B' La) as [B1' B2']. split; [exact B1'|]. intros Lb. specialize (B2 Lb). specialize (B2' Lb). lia.
        -- exists x, y, z. unfold clamp; auto 10.
    + rewrite N.compare_lt_iff in CB. destruct M as [[L ->]|[L ->]].
      * exists x', y', z'. unfold clamp; auto 10.
      * exists x, y, z. unfold clamp. do 5 (split; [assumption|]). intros La. destruct (B La) as [B1 B2].
        destruct (B' La) as [B1' B2']. split; [lia|]. intros Lb. lia.
    + rewrite N.compare_gt_iff in CB. destruct M as [[L ->]|[L ->]].
      * exists x', y', z'. unfold clamp. do 5 (split; [assumption|]). intros La. destruct (B La) as [B1 B2].
        destruct (B' La) as [B1' B2']. split; [lia|]. intros Lb. lia.
      * exists x, y, z. unfold clamp; auto 10.
  - rewrite N.compare_lt_iff in CA. destruct M as [[L ->]|[L ->]].
    + exists x', y', z'. unfold clamp; auto 10.
    + exists x, y, z. unfold clamp. do 4 (split; [assumption|]). split; [lia|]. intros La. lia.
  - rewrite N.compare_gt_iff in CA. destruct M as [[L ->]|[L ->]].
    + exists x', y', z'. unfold clamp. do 4 (split; [assumption|]). split; [lia|]. intros La. lia.
    + exists x, y, z. unfold clamp; auto 10.
Qed.

Lemma packed_zero : packed 0 (0, 0, 0).
Proof.
  exists 0, 0, 0. unfold clamp. split; [reflexivity|]. split; [lia|]. split; [lia|]. split; [lia|].
  split; [reflexivity|]. intros _. split; [reflexivity|]. intros _. reflexivity.
Qed.

(** * Selectors *)

Lemma max_fold_acc : forall (f : sel -> N) l m,
  fold_left (fun m s => N.max (f s) m) l m = N.max (fold_left (fun m s => N.max (f s) m) l 0) m.
Proof.
  intros f. induction l as [|s l IH]; intros m; cbn [fold_left].
  - lia.
  - rewrite IH. symmetry. rewrite IH. lia.
Qed.

Lemma max_spec_cons : forall s l, max_spec (s :: l) = N.max (fst s) (max_spec l).
Proof.
  intros s l. unfold max_spec. cbn [fold_left]. rewrite (max_fold_acc fst l). rewrite N.max_0_r.
  apply N.max_comm.
Qed.

Lemma t_add_0_r : forall t, t_add t (0, 0, 0) = t.
Proof. intros [[a b] c]. unfold t_add. rewrite !N.add_0_r. reflexivity. Qed.
Lemma t_add_assoc : forall x y z, t_add x (t_add y z) = t_add (t_add x y) z.
Proof. intros [[a b] c] [[d e] f] [[g h] i]. unfold t_add. rewrite !N.add_assoc. reflexivity. Qed.

Lemma complex_agrees_acc : forall l s t,
  (forall c, In c l -> agrees (simple_spec c) (css_spec c)) -> agrees s t ->
  agrees (fold_left (fun s c => s_add s (simple_spec c)) l s) (t_add t (css_items css_spec l)).
Proof.
  induction l as [|c l IH]; intros s t H A; cbn [fold_left css_items].
  - rewrite t_add_0_r. exact A.
  - rewrite t_add_assoc. apply IH.
    + intros c' I. apply H. right; exact I.
    + apply agrees_add; [exact A|]. apply H. left; reflexivity.
Qed.

Lemma complex_agrees : forall l,
  (forall c, In c l -> agrees (simple_spec c) (css_spec c)) ->
  agrees (complex_spec l) (css_items css_spec l).
Proof.
  intros l H. pose proof (complex_agrees_acc l s_zero (0, 0, 0) H agrees_zero) as A.
  unfold complex_spec. destruct (css_items css_spec l) as [[a b] c]. cbn [t_add] in A.
  rewrite !N.add_0_l in A. exact A.
Qed.

Lemma css_filter : forall l,
  css_items css_spec (filter (fun c => negb (is_comb c)) l) = css_items css_spec l.
Proof.
  induction l as [|c l IH]; [reflexivity|]. cbn [filter].
  destruct (is_comb c) eqn:E; cbn [negb].
  - destruct c; try discriminate. cbn [css_items css_spec]. rewrite IH.
    destruct (css_items css_spec l) as [[a b] d]. reflexivity.
  - cbn [css_items]. rewrite IH. reflexivity.
Qed.

Lemma built_forall : forall l, fold_right (fun c P => built c /\ P) True l <-> Forall built l.
Proof.
  induction l as [|c l IH]; cbn [fold_right].
  - split; [constructor|trivial].
  - rewrite IH. split; [intros [A B]; constructor; assumption|intros F; inversion F; auto].
Qed.

Lemma sel_packed : forall s, Forall (fun c => built c -> agrees (simple_spec c) (css_spec c)) (snd s) ->
  built_sel built s -> packed (fst s) (css_items css_spec (snd s)).
Proof.
  intros [v items] F [E B]. cbn [fst snd] in *. rewrite E, <- css_filter. apply pack_packed.
  apply complex_agrees. intros c I. apply filter_In in I. destruct I as [I _].
  rewrite Forall_forall in F. apply (F c I). apply built_forall in B. rewrite Forall_forall in B. exact (B c I).
Qed.

Lemma list_packed : forall l, Forall (fun s : sel => Forall (fun c => built c -> agrees (simple_spec c) (css_spec c)) (snd s)) l ->
  fold_right (fun s P => built_sel built s /\ P) True l -> packed (max_spec l) (css_max css_spec l).
Proof.
  induction l as [|s l IH]; intros F B; [exact packed_zero|].
  inversion F; subst. cbn [fold_right] in B. destruct B as [Bs Bl].
  rewrite max_spec_cons. destruct s as [v items]. cbn [css_max]. apply packed_max.
  - exact (sel_packed (v, items) H1 Bs).
  - apply IH; assumption.
Qed.

Theorem simple_agrees : forall c, built c -> agrees (simple_spec c) (css_spec c).
Proof.
  induction c as [c IH] using comp_ind'. intros B.
  destruct c; cbn [built] in B; try contradiction; cbn [simple_spec css_spec subs] in *;
    try apply agrees_unit.
  - apply agrees_add; [apply agrees_unit|]. apply unpack_agrees, list_packed; assumption.
  - apply unpack_agrees, list_packed; assumption.
  - apply unpack_agrees, list_packed; assumption.
  - apply unpack_agrees, list_packed; assumption.
  - inversion IH; subst. destruct s as [v items]. apply agrees_add; [apply agrees_unit|].
    apply unpack_agrees. exact (sel_packed (v, items) H1 B).
  - destruct s as [[v items]|]; [|apply agrees_unit]. inversion IH; subst.
    apply agrees_add; [apply agrees_unit|]. apply unpack_agrees. exact (sel_packed (v, items) H1 B).
Qed.

Theorem selector_packed : forall s, built_sel built s -> packed (fst s) (css_items css_spec (snd s)).
Proof.
  intros s B. apply sel_packed; [|exact B]. apply Forall_forall. intros c _. apply simple_agrees.
Qed.

(** What the builder makes is [built_sel]. *)

Lemma plain_filter : forall q, plain q -> filter (fun c => negb (is_comb c)) q = q.
Proof.
  induction q as [|c q IH]; intros P; [reflexivity|]. inversion P; subst. cbn [filter].
  rewrite H1. cbn [negb]. rewrite IH by assumption. reflexivity.
Qed.

Lemma s_add_comm : forall x y, s_add x y = s_add y x.
Proof. intros. unfold s_add. f_equal; lia. Qed.
Lemma s_add_assoc : forall x y z, s_add x (s_add y z) = s_add (s_add x y) z.
Proof. intros. unfold s_add. cbn. f_equal; lia. Qed.

Lemma complex_acc : forall l s, fold_left (fun s c => s_add s (simple_spec c)) l s = s_add s (complex_spec l).
Proof.
  unfold complex_spec. induction l as [|c l IH]; intros s; cbn [fold_left].
  - unfold s_add, s_zero. cbn. destruct s; cbn. f_equal; lia.
  - rewrite IH, (IH (s_add s_zero (simple_spec c))), s_add_assoc. reflexivity.
Qed.

Lemma complex_app : forall x y, complex_spec (x ++ y) = s_add (complex_spec x) (complex_spec y).
Proof. intros. unfold complex_spec at 1. rewrite fold_left_app, complex_acc. reflexivity. Qed.

Definition simples_of (l : list comp) : list comp := filter (fun c => negb (is_comb c)) l.

Lemma simples_app : forall x y, simples_of (x ++ y) = (simples_of x ++ simples_of y)%list.
Proof. intros. apply filter_app. Qed.

Lemma simples_interleave : forall parts ks, List.length parts = S (List.length ks) ->
  Forall plain parts -> simples_of (interleave parts ks) = List.concat parts.
Proof.
  induction parts as [|p parts IH]; intros ks L F; [discriminate|].
  inversion F; subst. destruct ks as [|k ks].
  - destruct parts; [|discriminate]. cbn. rewrite app_nil_r. apply plain_filter. assumption.
  - cbn [List.length] in L. injection L as L. destruct parts as [|q parts]; [discriminate|].
    change (interleave (p :: q :: parts) (k :: ks)) with (p ++ CComb k :: interleave (q :: parts) ks)%list.
    rewrite simples_app. change (List.concat (p :: q :: parts)) with (p ++ List.concat (q :: parts))%list.
    rewrite <- (IH ks L) by assumption.
    unfold simples_of at 1. rewrite plain_filter by assumption. reflexivity.
Qed.

Lemma complex_concat_rev : forall parts,
  complex_spec (List.concat (rev parts)) = complex_spec (List.concat parts).
Proof.
  induction parts as [|p parts IH]; [reflexivity|]. cbn [rev]. rewrite concat_snoc, complex_app, IH.
  cbn [List.concat]. rewrite complex_app. apply s_add_comm.
Qed.

Lemma in_interleave : forall parts ks c, In c (interleave parts ks) ->
  is_comb c = true \/ exists p, In p parts /\ In c p.
Proof.
  induction parts as [|p parts IH]; intros ks c I; [destruct I|].
  destruct parts as [|q parts].
  - cbn in I. right. exists p. split; [left; reflexivity|]. destruct ks; exact I.
  - destruct ks as [|k ks].
    + cbn in I. right. exists p. split; [left; reflexivity|exact I].
    + change (interleave (p :: q :: parts) (k :: ks)) with (p ++ CComb k :: interleave (q :: parts) ks)%list in I.
      apply in_app_or in I. destruct I as [I|[<-|I]].
      * right. exists p. split; [left; reflexivity|exact I].
      * left; reflexivity.
      * destruct (IH ks c I) as [E|(x & X & J)]; [left; exact E|]. right. exists x. split; [right; exact X|exact J].
Qed.

Theorem builder_built : forall parts ks s, well_formed parts ks -> Forall (Forall built) parts ->
  selector_from (interleave parts ks) = Some s -> built_sel built s.
Proof.
  intros parts ks s W B E. rewrite (build_order parts ks W) in E. injection E as <-.
  destruct W as [L F]. split; cbn [fst snd].
  - fold (simples_of (interleave (rev parts) (rev ks))).
    rewrite simples_interleave.
    + rewrite complex_concat_rev. reflexivity.
    + rewrite !rev_length. exact L.
    + apply Forall_rev. exact F.
  - apply built_forall. apply Forall_forall. intros c I.
    apply in_interleave in I. destruct I as [I|(p & P & I)].
    + destruct c; try discriminate. exact Logic.I.
    + apply in_rev in P. rewrite Forall_forall in B. specialize (B p P).
      rewrite Forall_forall in B. exact (B c I).
Qed.

Lemma css_app : forall x y, css_items css_spec (x ++ y) = t_add (css_items css_spec x) (css_items css_spec y).
Proof.
  induction x as [|c x IH]; intros y; cbn [app css_items].
  - destruct (css_items css_spec y) as [[a b] d]. reflexivity.
  - rewrite IH, t_add_assoc. reflexivity.
Qed.

Lemma t_add_comm : forall x y, t_add x y = t_add y x.
Proof. intros [[a b] c] [[d e] f]. unfold t_add. rewrite (N.add_comm a), (N.add_comm b), (N.add_comm c). reflexivity. Qed.

Lemma css_interleave : forall parts ks, List.length parts = S (List.length ks) -> Forall plain parts ->
  css_items css_spec (interleave parts ks) = css_items css_spec (List.concat parts).
Proof.
  intros parts ks L F. rewrite <- css_filter. fold (simples_of (interleave parts ks)).
  rewrite simples_interleave by assumption. reflexivity.
Qed.

Lemma css_concat_rev : forall parts,
  css_items css_spec (List.concat (rev parts)) = css_items css_spec (List.concat parts).
Proof.
  induction parts as [|p parts IH]; [reflexivity|]. cbn [rev]. rewrite concat_snoc, css_app, IH.
  cbn [List.concat]. rewrite css_app. apply t_add_comm.
Qed.

Theorem source_packed : forall parts ks s, well_formed parts ks -> Forall (Forall built) parts ->
  selector_from (interleave parts ks) = Some s ->
  packed (fst s) (css_items css_spec (interleave parts ks)).
Proof.
  intros parts ks s W B E. pose proof (selector_packed s (builder_built parts ks s W B E)) as P.
  rewrite (build_order parts ks W) in E. injection E as <-. cbn [fst snd] in *. destruct W as [L F].
  rewrite css_interleave in P; [|rewrite !rev_length; exact L|apply Forall_rev; exact F].
  rewrite css_concat_rev in P. rewrite css_interleave by assumption. exact P.
Qed.

(** The packed number, read back. *)
Lemma packed_read : forall v t, packed v t ->
  let '(a, b, c) := t in
  s_id (s_unpack v) = N.min a 1023 /\
  (a < 1024 -> s_class (s_unpack v) = N.min b 1023 /\
    (b < 1024 -> s_elem (s_unpack v) = N.min c 1023)).
Proof.
  intros v [[a b] c] (x & y & z & -> & X & Y & Z & A & B). rewrite unpack_sum by assumption.
  unfold clamp in *. cbn. split; [exact A|]. intros L. destruct (B L) as [B1 B2]. split; [exact B1|exact B2].
Qed.

Lemma packed_compare : forall v t v' t', packed v t -> packed v' t' -> below_1024 t -> below_1024 t' ->
  N.compare v v' = t_cmp t t'.
Proof.
  intros v [[a b] c] v' [[a' b'] c'] (x & y & z & -> & X & Y & Z & A & B) (x' & y' & z' & -> & X' & Y' & Z' & A' & B').
  unfold below_1024, clamp, t_cmp in *. intros (L1 & L2 & L3) (L1' & L2' & L3').
  destruct (B L1) as [B1 B2]. destruct (B' L1') as [B1' B2']. specialize (B2 L2). specialize (B2' L2').
  destruct (a ?= a') eqn:CA.
  - apply N.compare_eq in CA. destruct (b ?= b') eqn:CB.
    + apply N.compare_eq in CB. destruct (c ?= c') eqn:CC.
      * apply N.compare_eq in CC. apply N.compare_eq_iff. lia.
      * rewrite N.compare_lt_iff in CC. apply N.compare_lt_iff. lia.
      * rewrite N.compare_gt_iff in CC. apply N.compare_gt_iff. lia.
    + rewrite N.compare_lt_iff in CB. apply N.compare_lt_iff. lia.
    + rewrite N.compare_gt_iff in CB. apply N.compare_gt_iff. lia.
  - rewrite N.compare_lt_iff in CA. apply N.compare_lt_iff. lia.
  - rewrite N.compare_gt_iff in CA. apply N.compare_gt_iff. lia.
Qed.
