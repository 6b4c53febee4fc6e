(** Proofs about the counting Bloom filter and the ancestor hashes. *)
From Coq Require Import ZArith NArith List Bool String Relations Lia.
From Verif Require Import BloomModel SelectorModel SelectorSpec SelectorMatchProofs.
Import ListNotations.
Local Open Scope N_scope.

(** * Histories *)

(** The multiset of hashes after a history. *)
Fixpoint remove_one (h : N) (l : list N) : list N :=
  match l with
  | [] => []
  | x :: r => if x =? h then r else x :: remove_one h r
  end.

Definition mset_op (m : list N) (o : bop) : list N :=
  match o with
  | Insert h => h :: m
  | Remove h => remove_one h m
  | Clear => []
  end.

Definition occ (m : list N) (h : N) : nat := List.length (filter (fun x => x =? h) m).

Lemma occ_remove : forall h x m,
  occ (remove_one h m) x = if h =? x then Nat.pred (occ m x) else occ m x.
Proof.
  intros h x m. induction m as [|y m IH]; cbn [remove_one].
  - unfold occ. cbn. destruct (h =? x); reflexivity.
  - destruct (y =? h) eqn:YH.
    + apply N.eqb_eq in YH. subst y. unfold occ. cbn [filter].
      destruct (h =? x); reflexivity.
    + unfold occ in *. cbn [filter]. destruct (y =? x) eqn:YX; cbn [List.length].
      * apply N.eqb_eq in YX. subst y. rewrite N.eqb_sym in YH. rewrite YH in IH |- *. rewrite IH. reflexivity.
      * exact IH.
Qed.

Lemma present_occ : forall l m h, present l h (occ m h) = occ (fold_left mset_op l m) h.
Proof.
  induction l as [|o l IH]; intros m h; [reflexivity|].
  cbn [fold_left]. rewrite <- IH. destruct o as [x|x|]; cbn [present mset_op].
  - assert (U : occ (x :: m) h = if x =? h then S (occ m h) else occ m h)
      by (unfold occ; cbn [filter]; destruct (x =? h); reflexivity).
    rewrite U. reflexivity.
  - rewrite occ_remove. reflexivity.
  - reflexivity.
Qed.

(** ** Counters *)

(** How many times a slot is used by the hashes of a multiset. *)
Definition uses (i : N) (h : N) : N :=
  (if hash1 h =? i then 1 else 0) + (if hash2 h =? i then 1 else 0).
Fixpoint total (i : N) (m : list N) : N :=
  match m with [] => 0 | h :: r => uses i h + total i r end.

Lemma total_remove : forall i h m, In h m -> total i m = uses i h + total i (remove_one h m).
Proof.
  intros i h m. induction m as [|x m IH]; [intros []|]. cbn [remove_one total].
  destruct (x =? h) eqn:E.
  - apply N.eqb_eq in E. subst x. reflexivity.
  - intros [->|I]; [rewrite N.eqb_refl in E; discriminate|]. cbn [total]. rewrite (IH I). lia.
Qed.

(** A counter is exact or saturated. *)
Definition exact (c : counters) (t : N -> N) : Prop := forall i, c i = 255 \/ c i = t i.

Lemma set_slot_same : forall c i v, set_slot c i v i = v.
Proof. intros. unfold set_slot. rewrite N.eqb_refl. reflexivity. Qed.
Lemma set_slot_other : forall c i v j, j <> i -> set_slot c i v j = c j.
Proof. intros. unfold set_slot. apply N.eqb_neq in H. rewrite H. reflexivity. Qed.

Lemma adjust_up : forall c i t, exact c t ->
  exists c', adjust_slot c i true = Some c' /\ exact c' (fun j => t j + if i =? j then 1 else 0).
Proof.
  intros c i t E. unfold adjust_slot. destruct (c i =? 255) eqn:F.
  - exists c. split; [reflexivity|]. intros j. apply N.eqb_eq in F.
    destruct (i =? j) eqn:IJ; [apply N.eqb_eq in IJ; subst j; left; exact F|].
    destruct (E j); [left; assumption|right; lia].
  - eexists. split; [reflexivity|]. apply N.eqb_neq in F. intros j.
    destruct (N.eq_dec j i) as [->|NJ].
    + rewrite set_slot_same, N.eqb_refl. destruct (E i); [contradiction|right; lia].
    + rewrite set_slot_other by exact NJ. destruct (i =? j) eqn:IJ; [apply N.eqb_eq in IJ; congruence|].
      destruct (E j); [left; assumption|right; lia].
Qed.

Lemma adjust_down : forall c i t, exact c (fun j => t j + if i =? j then 1 else 0) ->
  exists c', adjust_slot c i false = Some c' /\ exact c' t.
Proof.
  intros c i t E. unfold adjust_slot. destruct (c i =? 255) eqn:F.
  - exists c. split; [reflexivity|]. intros j. apply N.eqb_eq in F.
    destruct (i =? j) eqn:IJ; [apply N.eqb_eq in IJ; subst j; left; exact F|].
    specialize (E j). cbn beta in E. rewrite IJ in E. destruct E; [left; assumption|right; lia].
  - apply N.eqb_neq in F.
    pose proof (E i) as Ei. cbn beta in Ei. rewrite N.eqb_refl in Ei. destruct Ei as [Ei|Ei]; [contradiction|].
    destruct (c i =? 0) eqn:Z; [apply N.eqb_eq in Z; lia|].
    eexists. split; [reflexivity|]. intros j.
    destruct (N.eq_dec j i) as [->|NJ].
    + rewrite set_slot_same. right. lia.
    + rewrite set_slot_other by exact NJ. specialize (E j). cbn beta in E.
      destruct (i =? j) eqn:IJ; [apply N.eqb_eq in IJ; congruence|].
      destruct E; [left; assumption|right; lia].
Qed.

Lemma exact_ext : forall c t t', (forall i, t i = t' i) -> exact c t -> exact c t'.
Proof. intros c t t' H E i. rewrite <- H. apply E. Qed.

Lemma insert_ok : forall c h m, exact c (fun i => total i m) ->
  exists c', insert_hash c h = Some c' /\ exact c' (fun i => total i (h :: m)).
Proof.
  intros c h m E. unfold insert_hash, adjust_hash.
  destruct (adjust_up c (hash1 h) _ E) as (c1 & A1 & E1). rewrite A1.
  destruct (adjust_up c1 (hash2 h) _ E1) as (c2 & A2 & E2).
  exists c2. split; [exact A2|]. eapply exact_ext; [|exact E2]. intros i. cbn [total]. unfold uses. lia.
Qed.

Lemma remove_ok : forall c h m, In h m -> exact c (fun i => total i m) ->
  exists c', remove_hash c h = Some c' /\ exact c' (fun i => total i (remove_one h m)).
Proof.
  intros c h m I E. unfold remove_hash, adjust_hash.
  assert (E0 : exact c (fun j => (fun j => total j (remove_one h m) + if hash2 h =? j then 1 else 0) j
                                 + if hash1 h =? j then 1 else 0)).
  { eapply exact_ext; [|exact E]. intros j. cbn beta. rewrite (total_remove j h m I). unfold uses. lia. }
  destruct (adjust_down c (hash1 h) _ E0) as (c1 & A1 & E1). rewrite A1.
  apply (adjust_down c1 (hash2 h) _ E1).
Qed.

Lemma total_in : forall i h m, In h m -> uses i h <= total i m.
Proof.
  intros i h m. induction m as [|x m IH]; [intros []|]. cbn [total].
  intros [->|I]; [lia|]. specialize (IH I). lia.
Qed.

Lemma contains_ok : forall c h m, exact c (fun i => total i m) -> In h m ->
  might_contain_hash c h = true.
Proof.
  intros c h m E I. unfold might_contain_hash, slot_is_empty.
  assert (NZ : forall i, 1 <= uses i h -> c i =? 0 = false).
  { intros i U. apply N.eqb_neq. pose proof (total_in i h m I). destruct (E i); lia. }
  rewrite (NZ (hash1 h)), (NZ (hash2 h)).
  - reflexivity.
  - unfold uses. rewrite N.eqb_refl. destruct (hash1 h =? hash2 h); lia.
  - unfold uses. rewrite N.eqb_refl. lia.
Qed.

Lemma occ_in : forall m h, (occ m h > 0)%nat -> In h m.
Proof.
  intros m h H. unfold occ in H. destruct (filter (fun x => x =? h) m) as [|y r] eqn:F; [cbn in H; lia|].
  assert (I : In y (filter (fun x => x =? h) m)) by (rewrite F; left; reflexivity).
  apply filter_In in I. destruct I as [I E]. apply N.eqb_eq in E. subst y. exact I.
Qed.

Lemma run_ok : forall l before c,
  exact c (fun i => total i (fold_left mset_op before [])) -> balanced_from before l ->
  exists c', run_bops c l = Some c' /\ exact c' (fun i => total i (fold_left mset_op (before ++ l) [])).
Proof.
  induction l as [|o l IH]; intros before c E B.
  - exists c. split; [reflexivity|]. rewrite app_nil_r. exact E.
  - assert (S : exists c1, run_bop c o = Some c1 /\
               exact c1 (fun i => total i (fold_left mset_op (before ++ [o]) [])) /\
               balanced_from (before ++ [o]) l).
    { rewrite fold_left_app. cbn [fold_left]. destruct o as [h|h|]; cbn [balanced_from run_bop mset_op] in *.
      - destruct (insert_ok c h _ E) as (c1 & A & E1). exists c1. auto.
      - destruct B as [P B].
        assert (I : In h (fold_left mset_op before [])).
        { apply occ_in. rewrite <- present_occ. exact P. }
        destruct (remove_ok c h _ I E) as (c1 & A & E1). exists c1. auto.
      - exists empty_filter. split; [reflexivity|]. split; [|exact B]. intros i. right. reflexivity. }
    destruct S as (c1 & R & E1 & B1). cbn [run_bops]. rewrite R.
    destruct (IH (before ++ [o])%list c1 E1 B1) as (c' & R' & E').
    exists c'. split; [exact R'|]. rewrite <- app_assoc in E'. exact E'.
Qed.

Theorem bloom_history : forall l, balanced l ->
  exists c, run_bops empty_filter l = Some c /\
    forall h, (present l h 0 > 0)%nat -> might_contain_hash c h = true.
Proof.
  intros l B. destruct (run_ok l [] empty_filter) as (c & R & E).
  - intros i. right. reflexivity.
  - exact B.
  - exists c. split; [exact R|]. intros h P. apply (contains_ok c h _ E). cbn [app].
    apply occ_in. rewrite <- present_occ. exact P.
Qed.

Theorem bloom_clear : forall l c h, run_bops empty_filter (l ++ [Clear]) = Some c ->
  might_contain_hash c h = false.
Proof.
  assert (H : forall l c0 c, run_bops c0 (l ++ [Clear]) = Some c -> c = empty_filter).
  { induction l as [|o l IH]; intros c0 c; cbn [app run_bops].
    - cbn. intros E. injection E as <-. reflexivity.
    - destruct (run_bop c0 o); [apply IH|discriminate]. }
  intros l c h R. rewrite (H l _ c R). reflexivity.
Qed.

(** ** Bits *)

Lemma mask_ones : hash_mask = N.ones 24. Proof. reflexivity. Qed.

Lemma hash1_mask : forall h, hash1 (N.land h hash_mask) = hash1 h.
Proof.
  intros h. unfold hash1. rewrite <- N.land_assoc. f_equal.
Qed.

Lemma hash2_mask : forall h, hash2 (N.land h hash_mask) = hash2 h.
Proof.
  intros h. unfold hash2. rewrite N.shiftr_land, <- N.land_assoc. f_equal.
Qed.

Lemma contain_mask : forall c h, might_contain_hash c (N.land h hash_mask) = might_contain_hash c h.
Proof. intros c h. unfold might_contain_hash. rewrite hash1_mask, hash2_mask. reflexivity. Qed.

Lemma land_mask_small : forall h, h < 2 ^ 24 -> N.land h hash_mask = h.
Proof. intros h H. rewrite mask_ones, N.land_ones, N.mod_small by exact H. reflexivity. Qed.

Lemma mask_small : forall h, N.land h hash_mask < 2 ^ 24.
Proof. intros h. rewrite mask_ones, N.land_ones. apply N.mod_lt. discriminate. Qed.

Lemma test_high : forall h i, h < 2 ^ 24 -> 24 <= i -> N.testbit h i = false.
Proof.
  intros h i H I. destruct (N.eq_dec h 0) as [->|NZ]; [apply N.bits_0|].
  apply N.bits_above_log2. apply N.log2_lt_pow2; [lia|].
  eapply N.lt_le_trans; [exact H|]. apply N.pow_le_mono_r; lia.
Qed.

(** A test of [i] against the constants used by the packing. *)
Lemma test_ones : forall n i, N.testbit (N.ones n) i = (i <? n).
Proof.
  intros n i. destruct (i <? n) eqn:E.
  - apply N.ltb_lt in E. apply N.ones_spec_low. exact E.
  - apply N.ltb_ge in E. apply N.ones_spec_high. exact E.
Qed.

Lemma test_byte : forall k i, N.testbit (N.shiftl (N.ones 8) k) i = (k <=? i) && (i <? k + 8).
Proof.
  intros k i. destruct (k <=? i) eqn:E.
  - apply N.leb_le in E. rewrite N.shiftl_spec_high' by exact E. rewrite test_ones. cbn [andb].
    destruct (i - k <? 8) eqn:A, (i <? k + 8) eqn:B; try reflexivity.
    + apply N.ltb_lt in A. apply N.ltb_ge in B. lia.
    + apply N.ltb_ge in A. apply N.ltb_lt in B. lia.
  - apply N.leb_gt in E. rewrite N.shiftl_spec_low by exact E. reflexivity.
Qed.

Lemma test_shiftl : forall a k i, N.testbit (N.shiftl a k) i = (k <=? i) && N.testbit a (i - k).
Proof.
  intros a k i. destruct (k <=? i) eqn:E.
  - apply N.leb_le in E. rewrite N.shiftl_spec_high' by exact E. reflexivity.
  - apply N.leb_gt in E. rewrite N.shiftl_spec_low by exact E. reflexivity.
Qed.

Lemma pack_low : forall h x s, h < 2 ^ 24 -> s <= 24 -> (forall i, i < 24 - s -> N.testbit x i = false) ->
  N.land (N.lor h (N.shiftl x s)) hash_mask = h.
Proof.
  intros h x s H S X. apply N.bits_inj. intros i.
  rewrite N.land_spec, N.lor_spec, test_shiftl, mask_ones, test_ones.
  destruct (i <? 24) eqn:E.
  - apply N.ltb_lt in E. rewrite andb_true_r. destruct (s <=? i) eqn:L; cbn [andb].
    + apply N.leb_le in L. rewrite X by lia. apply orb_false_r.
    + apply orb_false_r.
  - apply N.ltb_ge in E. rewrite andb_false_r. symmetry. apply test_high; assumption.
Qed.

Lemma pack_high : forall h x s k, h < 2 ^ 24 -> k <= 24 -> s = 24 - k ->
  N.shiftr (N.land (N.lor h (N.shiftl (N.land x (N.shiftl (N.ones 8) k)) s)) (N.shiftl (N.ones 8) 24)) s
  = N.land x (N.shiftl (N.ones 8) k).
Proof.
  intros h x s k H K ->. apply N.bits_inj. intros i.
  rewrite N.shiftr_spec', N.land_spec, N.lor_spec, test_shiftl, N.land_spec, !test_byte, N.land_spec, test_byte.
  replace (24 - k <=? i + (24 - k)) with true by (symmetry; apply N.leb_le; lia). cbn [andb].
  replace (i + (24 - k) - (24 - k)) with i by lia.
  destruct (k <=? i) eqn:L; cbn [andb].
  - apply N.leb_le in L.
    replace (24 <=? i + (24 - k)) with true by (symmetry; apply N.leb_le; lia). cbn [andb].
    rewrite (test_high h) by (exact H || lia). cbn [orb].
    destruct (i <? k + 8) eqn:B.
    + apply N.ltb_lt in B. replace (i + (24 - k) <? 24 + 8) with true by (symmetry; apply N.ltb_lt; lia).
      rewrite !andb_true_r. reflexivity.
    + rewrite !andb_false_r. reflexivity.
  - apply N.leb_gt in L.
    replace (24 <=? i + (24 - k)) with false by (symmetry; apply N.leb_gt; lia).
    cbn [andb]. rewrite !andb_false_r. reflexivity.
Qed.

Lemma bytes_together : forall x, x < 2 ^ 24 ->
  N.lor (N.lor (N.land x (N.shiftl (N.ones 8) 0)) (N.land x (N.shiftl (N.ones 8) 8)))
        (N.land x (N.shiftl (N.ones 8) 16)) = x.
Proof.
  intros x H. apply N.bits_inj. intros i. rewrite !N.lor_spec, !N.land_spec, !test_byte.
  destruct (N.lt_ge_cases i 24) as [L|L].
  - destruct (N.testbit x i); [|reflexivity]. cbn [andb].
    destruct (N.lt_ge_cases i 8) as [A|A].
    + replace (0 <=? i) with true by (symmetry; apply N.leb_le; lia).
      replace (i <? 0 + 8) with true by (symmetry; apply N.ltb_lt; lia). reflexivity.
    + destruct (N.lt_ge_cases i 16) as [B|B].
      * replace (8 <=? i) with true by (symmetry; apply N.leb_le; lia).
        replace (i <? 8 + 8) with true by (symmetry; apply N.ltb_lt; lia). cbn [andb]. rewrite orb_true_r. reflexivity.
      * replace (16 <=? i) with true by (symmetry; apply N.leb_le; lia).
        replace (i <? 16 + 8) with true by (symmetry; apply N.ltb_lt; lia). cbn [andb]. rewrite orb_true_r. reflexivity.
  - rewrite (test_high x i H L). reflexivity.
Qed.

Lemma fourth_small : forall a b c, a < 2 ^ 24 -> b < 2 ^ 24 -> c < 2 ^ 24 -> fourth_hash (a, b, c) = 0.
Proof.
  assert (Z : forall a, a < 2 ^ 24 -> N.land a 0xff000000 = 0).
  { intros a H. apply N.bits_inj. intros i. rewrite N.land_spec, N.bits_0.
    change 0xff000000 with (N.shiftl (N.ones 8) 24). rewrite test_byte.
    destruct (24 <=? i) eqn:E; [|rewrite andb_false_r; reflexivity].
    apply N.leb_le in E. rewrite (test_high a i H E). reflexivity. }
  intros a b c A B C. unfold fourth_hash. rewrite !Z by assumption. reflexivity.
Qed.

(** ** Fast rejection *)

Definition all_small (l : list N) : Prop := Forall (fun h => h < 2 ^ 24) l.

Lemma packed_ok : forall h0 h1 h2 h3 bf,
  h0 < 2 ^ 24 -> h1 < 2 ^ 24 -> h2 < 2 ^ 24 -> h3 < 2 ^ 24 ->
  might_contain_hash bf h0 = true -> might_contain_hash bf h1 = true ->
  might_contain_hash bf h2 = true -> might_contain_hash bf h3 = true ->
  may_match (N.lor h0 (N.shiftl (N.land h3 0xff) 24),
             N.lor h1 (N.shiftl (N.land h3 0xff00) 16),
             N.lor h2 (N.shiftl (N.land h3 0xff0000) 8)) bf = true.
Proof.
  intros h0 h1 h2 h3 bf S0 S1 S2 S3 C0 C1 C2 C3.
  change 0xff with (N.shiftl (N.ones 8) 0). change 0xff00 with (N.shiftl (N.ones 8) 8).
  change 0xff0000 with (N.shiftl (N.ones 8) 16).
  assert (Low : forall k i, i < k -> N.testbit (N.land h3 (N.shiftl (N.ones 8) k)) i = false).
  { intros k i L. rewrite N.land_spec, test_byte.
    replace (k <=? i) with false by (symmetry; apply N.leb_gt; exact L). cbn [andb].
    apply andb_false_r. }
  unfold may_match.
  rewrite (pack_low h0) by (assumption || lia || (intros; lia)).
  rewrite (pack_low h1) by (assumption || lia || (intros; apply Low; lia)).
  rewrite (pack_low h2) by (assumption || lia || (intros; apply Low; lia)).
  rewrite C0, C1, C2. cbn [negb].
  assert (F : fourth_hash (N.lor h0 (N.shiftl (N.land h3 (N.shiftl (N.ones 8) 0)) 24),
                           N.lor h1 (N.shiftl (N.land h3 (N.shiftl (N.ones 8) 8)) 16),
                           N.lor h2 (N.shiftl (N.land h3 (N.shiftl (N.ones 8) 16)) 8)) = h3).
  { unfold fourth_hash. change 0xff000000 with (N.shiftl (N.ones 8) 24).
    rewrite (pack_high h0 h3 24 0) by (assumption || lia).
    rewrite (pack_high h1 h3 16 8) by (assumption || lia).
    rewrite (pack_high h2 h3 8 16) by (assumption || lia).
    apply bytes_together. exact S3. }
  rewrite F, C3, orb_true_r.
  destruct (_ =? 0); [reflexivity|]. destruct (_ =? 0); [reflexivity|]. destruct (_ =? 0); reflexivity.
Qed.

Lemma may_match_all : forall hash q items bf,
  (List.length (collect_hashes hash q items) <= 4)%nat ->
  (forall h, In h (collect_hashes hash q items) -> h < 2 ^ 24 /\ might_contain_hash bf h = true) ->
  may_match (ancestor_hashes hash q items) bf = true.
Proof.
  intros hash q items bf L A. unfold ancestor_hashes.
  destruct (collect_hashes hash q items) as [|h0 [|h1 [|h2 [|h3 [|h4 r]]]]]; cbn [List.length nth Nat.eqb].
  - reflexivity.
  - destruct (A h0) as [S0 C0]; [left; reflexivity|]. unfold may_match.
    rewrite (land_mask_small h0 S0), C0. cbn [negb]. destruct (h0 =? 0); reflexivity.
  - destruct (A h0) as [S0 C0]; [left; reflexivity|]. destruct (A h1) as [S1 C1]; [right; left; reflexivity|].
    unfold may_match.
    rewrite (land_mask_small h0 S0), (land_mask_small h1 S1), C0, C1. cbn [negb].
    destruct (h0 =? 0); [reflexivity|]. destruct (h1 =? 0); reflexivity.
  - destruct (A h0) as [S0 C0]; [left; reflexivity|]. destruct (A h1) as [S1 C1]; [right; left; reflexivity|].
    destruct (A h2) as [S2 C2]; [right; right; left; reflexivity|].
    unfold may_match.
    rewrite (land_mask_small h0 S0), (land_mask_small h1 S1), (land_mask_small h2 S2), C0, C1, C2. cbn [negb].
    rewrite fourth_small by assumption.
    destruct (h0 =? 0); [reflexivity|]. destruct (h1 =? 0); [reflexivity|]. destruct (h2 =? 0); reflexivity.
  - destruct (A h0) as [S0 C0]; [left; reflexivity|]. destruct (A h1) as [S1 C1]; [right; left; reflexivity|].
    destruct (A h2) as [S2 C2]; [right; right; left; reflexivity|].
    destruct (A h3) as [S3 C3]; [right; right; right; left; reflexivity|].
    apply packed_ok; assumption.
  - cbn [List.length] in L. lia.
Qed.

(** ** What is collected *)

Section Collect.
Variable hash : string -> N.
Variable cx : ctx.
Variable e : elem.

(** A hash of a string of an ancestor of [e]. *)
Definition good (h : N) : Prop :=
  exists a s, In a (anc_list e) /\ In s (relevant (e_data a)) /\ h = N.land (hash s) hash_mask.

Definition acc_ok (a : acc) : Prop :=
  Forall good (fst a) /\ (List.length (fst a) <= 4)%nat /\
  (snd a = true -> (List.length (fst a) < 4)%nat).

(** An element whose ancestors are all ancestors of [e]. *)
Definition near (x : elem) : Prop := incl (anc_list x) (anc_list e).

Lemma anc_near : forall x, In x (anc_list e) -> near x.
Proof. intros x I y J. eapply in_anc_trans; eassumption. Qed.

Lemma rel_near : forall k x' x, rel k x' x -> near x -> near x'.
Proof.
  intros k x' x R N. destruct k; cbn [rel] in R; try contradiction.
  - intros y J. apply N. rewrite anc_list_unfold. unfold is_parent in R. rewrite R. right; exact J.
  - apply desc_in in R. intros y J. apply N. eapply in_anc_trans; eassumption.
  - unfold is_prev in R. intros y J. apply N. rewrite <- (prev_anc _ _ R). exact J.
  - apply later_in in R. intros y J. apply N. rewrite <- (in_prev_anc _ _ R). exact J.
  - apply desc_in in R. intros y J. apply N. eapply in_anc_trans; eassumption.
  - apply desc_in in R. intros y J. apply N. eapply in_anc_trans; eassumption.
Qed.

Lemma rel_anc : forall k x' x, rel k x' x -> is_anc_comb k = true -> near x -> In x' (anc_list e).
Proof.
  intros k x' x R A N. destruct k; try discriminate; cbn [rel] in R.
  - apply N. rewrite anc_list_unfold. unfold is_parent in R. rewrite R. left; reflexivity.
  - apply desc_in in R. apply N. exact R.
Qed.

Definition collects (f : comp -> acc -> acc) (c : comp) : Prop :=
  forall x a, In x (anc_list e) -> sem_comp cx c x -> acc_ok a -> snd a = true -> acc_ok (f c a).

Lemma collect_items_ok : forall f items, Forall (collects f) items ->
  forall m x a, sem_items (sem_comp cx) items x -> near x ->
    (m = Yielding \/ m = Fresh -> In x (anc_list e)) ->
    acc_ok a -> snd a = true -> acc_ok (collect_items f m items a).
Proof.
  intros f. induction items as [|c r IH]; intros F m x a S N Y A T; [exact A|].
  inversion F as [|? ? Hc Hr]; subst. destruct (is_comb c) eqn:IC.
  - destruct c; try discriminate. cbn [sem_items] in S. destruct S as [x' [R S]].
    pose proof (rel_near _ _ _ R N) as N'. cbn [collect_items].
    destruct m; try exact A; destruct (is_anc_comb k) eqn:K;
      apply (IH Hr _ x'); try assumption; intros [E|E]; try discriminate;
      exact (rel_anc _ _ _ R K N).
  - assert (S' : sem_comp cx c x /\ sem_items (sem_comp cx) r x) by (destruct c; try discriminate; exact S).
    destruct S' as [Sc Sr].
    assert (U : collect_items f m (c :: r) a =
      match m with
      | Yielding | Fresh => let a' := f c a in if snd a' then collect_items f Yielding r a' else a'
      | _ => collect_items f m r a
      end) by (destruct c; try discriminate; reflexivity).
    rewrite U. clear U.
    assert (Go : In x (anc_list e) ->
      acc_ok (let a' := f c a in if snd a' then collect_items f Yielding r a' else a')).
    { intros I. pose proof (Hc x a I Sc A T) as A'. cbn zeta. destruct (snd (f c a)) eqn:T'; [|exact A'].
      apply (IH Hr _ x); auto. }
    destruct m.
    + apply Go. apply Y. left; reflexivity.
    + apply Go. apply Y. right; reflexivity.
    + apply (IH Hr _ x); assumption.
    + apply (IH Hr _ x); assumption.
Qed.

Lemma add_ok : forall a x s, acc_ok a -> snd a = true -> In x (anc_list e) -> In s (relevant (e_data x)) ->
  acc_ok (add_hash (hash s) a).
Proof.
  intros a x s (F & L & T) Ta I R. specialize (T Ta). unfold add_hash. unfold acc_ok. cbn [fst snd].
  rewrite app_length. cbn [List.length]. split; [|split].
  - apply Forall_app. split; [exact F|]. constructor; [|constructor]. exists x, s. auto.
  - lia.
  - intros E. apply PeanoNat.Nat.ltb_lt in E. exact E.
Qed.

Lemma name_exact : forall x y, c_quirks cx = false -> same_name cx x y -> x = y.
Proof. intros x y Q. unfold same_name. rewrite Q. auto. Qed.

Lemma collect_comp_ok : forall c, collects (collect_comp hash (c_quirks cx)) c.
Proof.
  induction c as [c IH] using comp_ind'. intros x a I S A T.
  assert (Nest : forall sp items, subs c = [(sp, items)] ->
     sem_items (sem_comp cx) items x ->
     acc_ok (collect_items (collect_comp hash (c_quirks cx)) SkippingNew items a)).
  { intros sp items E Si. rewrite E in IH. inversion IH as [|? ? Hi _]; subst. cbn [snd] in Hi.
    apply (collect_items_ok _ items Hi SkippingNew x a Si (anc_near x I)); try assumption.
    intros [D|D]; discriminate. }
  destruct c; try exact A; cbn [collect_comp collect_leaf].
  - cbn in S. subst url. apply (add_ok a x); auto. right; left; reflexivity.
  - cbn in S. destruct (String.eqb name lower) eqn:E; [|exact A]. apply String.eqb_eq in E. subst lower.
    apply (add_ok a x); auto. left. rewrite S. destruct (n_html (e_data x)); reflexivity.
  - cbn in S. destruct (c_quirks cx) eqn:Q; [exact A|]. destruct S as [i [Ei Ni]].
    apply (name_exact _ _ Q) in Ni. subst i. apply (add_ok a x); auto.
    unfold relevant. rewrite Ei. right; right; left; reflexivity.
  - cbn in S. destruct (c_quirks cx) eqn:Q; [exact A|]. destruct S as [i [Ei Ni]].
    apply (name_exact _ _ Q) in Ni. subst i. apply (add_ok a x); auto.
    unfold relevant. right; right. apply in_or_app. right; exact Ei.
  - destruct l as [|[sp items] [|? ?]]; try exact A. cbn [sem_comp sem_any] in S.
    destruct S as [S|[]]. apply (Nest sp items eq_refl S).
  - destruct l as [|[sp items] [|? ?]]; try exact A. cbn [sem_comp sem_any] in S.
    destruct S as [S|[]]. apply (Nest sp items eq_refl S).
Qed.

Theorem collected_ok : forall items, sem_items (sem_comp cx) items e ->
  Forall good (collect_hashes hash (c_quirks cx) items) /\
  (List.length (collect_hashes hash (c_quirks cx) items) <= 4)%nat.
Proof.
  intros items S. unfold collect_hashes.
  destruct (collect_items_ok (collect_comp hash (c_quirks cx)) items
      (proj2 (Forall_forall _ _) (fun c _ => collect_comp_ok c)) SkippingNew e ([], true) S) as (F & L & _).
  - intros y J; exact J.
  - intros [D|D]; discriminate.
  - split; [constructor|]. split; [cbn; lia|]. intros _. cbn. lia.
  - reflexivity.
  - auto.
Qed.
End Collect.

Theorem fast_reject_ok : forall hash cx n s e bf st0,
  sup_items (supported n) (snd s) -> small n e -> cache_ok st0 ->
  records_ancestors hash bf e ->
  exists b st1,
    matches_selector cx s (Some (ancestor_hashes hash (c_quirks cx) (snd s))) (Some bf) e st0 = Some (b, st1) /\
    (b = true <-> sem_items (sem_comp cx) (snd s) e).
Proof.
  intros hash cx n s e bf st0 Sup Sm OK R.
  destruct (match_selector_ok cx n (snd s) e st0 Sup OK Sm) as (b & s' & E & _ & H).
  cbn [matches_selector].
  destruct (may_match (ancestor_hashes hash (c_quirks cx) (snd s)) bf) eqn:M.
  - exists b, s'. auto.
  - exists false, st0. split; [reflexivity|]. split; [discriminate|]. intros F. exfalso.
    destruct (collected_ok hash cx e (snd s) F) as [G L].
    rewrite (may_match_all hash (c_quirks cx) (snd s) bf L) in M; [discriminate|].
    intros h I. rewrite Forall_forall in G. destruct (G h I) as (a & str & Ia & Is & ->).
    split; [apply mask_small|]. apply R with a; [apply desc_in; exact Ia|exact Is].
Qed.
