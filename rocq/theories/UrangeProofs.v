(** * Proofs about [unicode-range] *)
From Coq Require Import List Bool NArith Ascii Lia Arith.
From Verif Require Import UrangeModel UrangeSpec.
Import ListNotations.
Local Open Scope N_scope.

Lemma numeral_unique t n : numeral t n -> forall m, numeral t m -> n = m.
Proof.
  induction 1 as [|t n c d H IH Hd]; intros m Hm; inversion Hm as [E|t' n' c' d' H' Hd' E].
  - reflexivity.
  - now destruct t'.
  - now destruct t.
  - apply app_inj_tail in E as [-> ->]. rewrite Hd in Hd'. injection Hd' as <-. now rewrite (IH _ H').
Qed.
Definition is_digit (c : ascii) : Prop := exists d, digit_value c = Some d.
Lemma numeral_digits t n : numeral t n -> Forall is_digit t.
Proof. induction 1; [constructor|]. apply Forall_app. split; [assumption|]. repeat constructor. now exists d. Qed.
Lemma digit_bound c d : digit_value c = Some d -> d < 16.
Proof.
  unfold digit_value. destruct ((48 <=? N_of_ascii c) && (N_of_ascii c <=? 57)) eqn:E1.
  - injection 1 as <-. apply andb_true_iff in E1 as [H1 H2]. apply N.leb_le in H1, H2. lia.
  - destruct ((65 <=? N_of_ascii c) && (N_of_ascii c <=? 70)) eqn:E2.
    + injection 1 as <-. apply andb_true_iff in E2 as [H1 H2]. apply N.leb_le in H1, H2. lia.
    + destruct ((97 <=? N_of_ascii c) && (N_of_ascii c <=? 102)) eqn:E3; [|discriminate].
      injection 1 as <-. apply andb_true_iff in E3 as [H1 H2]. apply N.leb_le in H1, H2. lia.
Qed.
Lemma numeral_bound t n : numeral t n -> n < 16 ^ N.of_nat (length t).
Proof.
  induction 1 as [|t n c d H IH Hd]; [reflexivity|]. rewrite app_length, Nat2N.inj_add, N.pow_add_r. cbn [length].
  apply digit_bound in Hd. change (16 ^ N.of_nat 1) with 16. nia.
Qed.

Lemma digit_value_digit d : d < 16 -> digit_value (digit d) = Some d.
Proof.
  intros H. assert (In d (map N.of_nat (seq 0 16))) as I.
  { apply in_map_iff. exists (N.to_nat d). rewrite N2Nat.id. split; [reflexivity|]. apply in_seq. lia. }
  cbn in I. repeat (destruct I as [<-|I]; [reflexivity|]). destruct I.
Qed.

Lemma digits_spec f : forall n acc, (1 <= f)%nat -> n < 16 ^ N.of_nat f ->
  exists d, digits f n acc = d ++ acc /\ numeral d n /\ (1 <= length d)%nat /\ ((length d = 1)%nat \/ 16 ^ N.of_nat (length d - 1) <= n).
Proof.
  induction f as [|f IH]; intros n acc Hf H; [lia|]. cbn [digits].
  assert (n = n / 16 * 16 + n mod 16) as E by (rewrite (N.mul_comm _ 16); apply N.div_mod; discriminate).
  assert (n mod 16 < 16) as M by (apply N.mod_lt; discriminate).
  destruct (n / 16 =? 0) eqn:Z.
  - apply N.eqb_eq in Z. exists [digit (n mod 16)]. split; [reflexivity|]. split; [|split; [|left]; auto].
    rewrite E at 2. rewrite Z. change [digit (n mod 16)] with ([] ++ [digit (n mod 16)]). constructor; [constructor|now apply digit_value_digit].
  - apply N.eqb_neq in Z. destruct f as [|f].
    { exfalso. apply Z. apply N.div_small. exact H. }
    destruct (IH (n / 16) (digit (n mod 16) :: acc)) as (d & Ed & Nd & Ld & Bd); [lia| |].
    { apply N.div_lt_upper_bound; [discriminate|]. rewrite <- N.pow_succ_r', <- Nat2N.inj_succ. exact H. }
    exists (d ++ [digit (n mod 16)]). rewrite Ed, <- app_assoc. split; [reflexivity|]. split; [|split].
    + rewrite E at 2. constructor; [assumption|now apply digit_value_digit].
    + rewrite app_length. cbn. lia.
    + right. rewrite app_length. cbn [length]. replace (length d + 1 - 1)%nat with (S (length d - 1)) by lia.
      rewrite Nat2N.inj_succ, N.pow_succ_r'. destruct Bd as [Bd|Bd].
      * rewrite Bd. change (16 * 1 <= n). clear - E Z. generalize dependent (n / 16). generalize (n mod 16). intros. lia.
      * clear - E Bd. revert E Bd. generalize (n / 16) (n mod 16) (16 ^ N.of_nat (length d - 1)). intros. nia.
Qed.
Lemma hex_spec n : n <= top -> numeral (hex n) n /\ (1 <= length (hex n))%nat /\ ((length (hex n) = 1)%nat \/ 16 ^ N.of_nat (length (hex n) - 1) <= n).
Proof.
  intros H. destruct (digits_spec 8 n []) as (d & E & A); [lia| |].
  - unfold top in H. apply N.le_lt_trans with (1 := H). reflexivity.
  - unfold hex. rewrite E, app_nil_r. exact A.
Qed.
(** A numeral is at least as long as the printed one *)
Lemma hex_shortest t n : n <= top -> numeral t n -> (length t = 0)%nat \/ (length (hex n) <= length t)%nat.
Proof.
  intros H Ht. apply numeral_bound in Ht. destruct (hex_spec n H) as (_ & _ & [E|E]); [lia|].
  assert (16 ^ N.of_nat (length (hex n) - 1) < 16 ^ N.of_nat (length t)) as L by lia. apply N.pow_lt_mono_r_iff in L; lia.
Qed.
Lemma hex_length n k : n <= top -> n < 16 ^ N.of_nat k -> (1 <= k)%nat -> (length (hex n) <= k)%nat.
Proof.
  intros H L K. destruct (hex_spec n H) as (_ & _ & [E|E]); [lia|].
  assert (16 ^ N.of_nat (length (hex n) - 1) < 16 ^ N.of_nat k) as G by lia. apply N.pow_lt_mono_r_iff in G; lia.
Qed.
Lemma top_six : top < 16 ^ N.of_nat 6.
Proof. reflexivity. Qed.
Lemma hex_six n : n <= top -> (1 <= length (hex n) <= 6)%nat.
Proof.
  intros H. split; [apply hex_spec; assumption|]. apply hex_length; [assumption| |lia]. apply N.le_lt_trans with (1 := H). exact top_six.
Qed.

(** ** The first digit that differs *)
Lemma land_digit a k : N.land a (N.shiftl 15 k) = N.shiftl (N.shiftr a k mod 16) k.
Proof.
  change 16 with (2 ^ 4). rewrite <- N.land_ones. change (N.ones 4) with 15. apply N.bits_inj. intros i.
  rewrite N.land_spec. destruct (N.le_gt_cases k i) as [L|L].
  - rewrite !N.shiftl_spec_high' by assumption. rewrite N.land_spec, N.shiftr_spec'. replace (i - k + k) with i by lia. reflexivity.
  - rewrite !N.shiftl_spec_low by assumption. apply andb_false_r.
Qed.
Lemma shiftr_digit a k : N.shiftr a k = N.shiftr a (k + 4) * 16 + N.shiftr a k mod 16.
Proof.
  rewrite (N.div_mod (N.shiftr a k) 16) at 1 by discriminate. rewrite <- N.shiftr_shiftr.
  rewrite (N.shiftr_div_pow2 _ 4). change (2 ^ 4) with 16. lia.
Qed.
Lemma same_digit a b k : N.shiftr a (k + 4) = N.shiftr b (k + 4) -> (N.land a (N.shiftl 15 k) =? N.land b (N.shiftl 15 k)) = (N.shiftr a k =? N.shiftr b k).
Proof.
  intros E. rewrite !land_digit. apply eq_true_iff_eq. rewrite !N.eqb_eq. split.
  - intros H. rewrite !N.shiftl_mul_pow2 in H. apply N.mul_cancel_r in H; [|now apply N.pow_nonzero].
    rewrite (shiftr_digit a k), (shiftr_digit b k), E, H. reflexivity.
  - intros ->. reflexivity.
Qed.
Lemma first_difference_spec k : forall a b,
  N.shiftr a (4 * N.of_nat k + 4) = N.shiftr b (4 * N.of_nat k + 4) ->
  exists d, first_difference k (4 * N.of_nat k) (N.shiftl 15 (4 * N.of_nat k)) a b = 4 * N.of_nat d /\ (d <= k)%nat
    /\ N.shiftr a (4 * N.of_nat d + 4) = N.shiftr b (4 * N.of_nat d + 4)
    /\ ((1 <= d)%nat -> N.shiftr a (4 * N.of_nat d) <> N.shiftr b (4 * N.of_nat d)).
Proof.
  induction k as [|k IH]; intros a b E; cbn [first_difference].
  - exists 0%nat. split; [reflexivity|]. split; [lia|]. split; [assumption|lia].
  - rewrite (same_digit _ _ _ E). destruct (N.shiftr a (4 * N.of_nat (S k)) =? N.shiftr b (4 * N.of_nat (S k))) eqn:Q; cbn [negb].
    + apply N.eqb_eq in Q.
      replace (4 * N.of_nat (S k)) with (4 * N.of_nat k + 4) in * by lia.
      destruct (IH a b Q) as (d & H1 & H2 & H3 & H4).
      exists d. split; [|split; [lia|]; split; assumption]. rewrite <- H1. f_equal; [lia|].
      apply N.bits_inj. intros i. rewrite N.shiftr_spec'. destruct (N.le_gt_cases (4 * N.of_nat k) i) as [L|L].
      * rewrite !N.shiftl_spec_high' by lia. f_equal. lia.
      * rewrite !N.shiftl_spec_low by lia. reflexivity.
    + apply N.eqb_neq in Q. exists (S k). split; [reflexivity|]. split; [lia|]. split; assumption || (intros _; assumption).
Qed.
Lemma start_difference a b : a <= top -> b <= top ->
  exists d, first_difference 6 24 (N.shiftl 15 24) a b = 4 * N.of_nat d /\ (d <= 6)%nat
    /\ N.shiftr a (4 * N.of_nat d + 4) = N.shiftr b (4 * N.of_nat d + 4)
    /\ ((1 <= d)%nat -> N.shiftr a (4 * N.of_nat d) <> N.shiftr b (4 * N.of_nat d)).
Proof.
  intros Ha Hb. apply (first_difference_spec 6). unfold top in *. change (4 * N.of_nat 6 + 4) with 28.
  rewrite !N.shiftr_div_pow2, !N.div_small; [reflexivity| |]; (eapply N.le_lt_trans; [eassumption|reflexivity]).
Qed.

(** ** The wildcard form *)
Lemma pow16 q : 2 ^ (4 * N.of_nat q) = 16 ^ N.of_nat q.
Proof. rewrite N.pow_mul_r. reflexivity. Qed.
Lemma rest_ones k : N.shiftl 1 k - 1 = N.ones k.
Proof. rewrite N.ones_equiv, N.shiftl_1_l, N.sub_1_r. reflexivity. Qed.
Lemma pow16_pos q : 0 < 16 ^ N.of_nat q.
Proof. apply N.neq_0_lt_0, N.pow_nonzero. discriminate. Qed.
Lemma some_eq {T} (x y : T) : Some x = Some y -> x = y.
Proof. now intros [=]. Qed.
Lemma wildcard_some a b t : a <= b -> b <= top -> wildcard a b = Some t ->
  exists n q, (1 <= q)%nat /\ t = plus ++ (if n =? 0 then [] else hex n) ++ repeat "?"%char q /\ a = n * 16 ^ N.of_nat q /\ b = n * 16 ^ N.of_nat q + (16 ^ N.of_nat q - 1).
Proof.
  intros Hab Hb. unfold wildcard. destruct (a =? b); [discriminate|].
  destruct (start_difference a b) as (d & Hd & Ld & Es & _); [lia|assumption|]. rewrite Hd, rest_ones.
  replace (4 * N.of_nat d + 4) with (4 * N.of_nat (S d)) in * by lia.
  rewrite !N.land_ones. destruct (_ && _) eqn:C; [|discriminate]. intros T. apply some_eq in T. subst t.
  apply andb_true_iff in C as [C1 C2]. apply N.eqb_eq in C1, C2.
  exists (N.shiftr a (4 * N.of_nat (S d))), (S d).
  assert (N.shiftr (N.ldiff a (N.ones (4 * N.of_nat (S d)))) (4 * N.of_nat (S d)) = N.shiftr a (4 * N.of_nat (S d))) as ->.
  { apply N.bits_inj. intros i. rewrite !N.shiftr_spec', N.ldiff_spec, N.ones_spec_high by lia. apply andb_true_r. }
  split; [lia|]. split.
  { unfold marks. do 3 f_equal. rewrite N.mul_comm, N.div_mul, Nat2N.id by discriminate. reflexivity. }
  rewrite N.ones_equiv, pow16 in *. rewrite N.shiftr_div_pow2, pow16 in *. rewrite N.shiftr_div_pow2, pow16 in Es.
  pose proof (N.div_mod a (16 ^ N.of_nat (S d))) as Da. pose proof (N.div_mod b (16 ^ N.of_nat (S d))) as Db.
  pose proof (pow16_pos (S d)) as P. set (p := 16 ^ N.of_nat (S d)) in *.
  specialize (Da ltac:(lia)). specialize (Db ltac:(lia)). rewrite C1 in Da. rewrite C2, <- Es in Db. split; lia.
Qed.
Lemma wildcard_complete n q : (1 <= q)%nat -> (q <= 6)%nat -> n * 16 ^ N.of_nat q + (16 ^ N.of_nat q - 1) <= top ->
  wildcard (n * 16 ^ N.of_nat q) (n * 16 ^ N.of_nat q + (16 ^ N.of_nat q - 1)) = Some (plus ++ (if n =? 0 then [] else hex n) ++ repeat "?"%char q).
Proof.
  intros Hq Lq Ht. pose proof (pow16_pos q) as P. set (a := n * 16 ^ N.of_nat q) in *. set (b := a + (16 ^ N.of_nat q - 1)) in *.
  assert (2 <= 16 ^ N.of_nat q) as P2.
  { destruct q as [|q]; [lia|]. rewrite Nat2N.inj_succ, N.pow_succ_r'. pose proof (pow16_pos q). lia. }
  unfold wildcard. replace (a =? b) with false by (symmetry; apply N.eqb_neq; lia).
  destruct (start_difference a b) as (d & Hd & Ld & Es & Ed); [lia|lia|]. rewrite Hd, rest_ones.
  assert (forall m, (m < q)%nat -> N.shiftr a (4 * N.of_nat m) <> N.shiftr b (4 * N.of_nat m)) as Lo.
  { intros m Hm. rewrite !N.shiftr_div_pow2, !pow16. unfold b, a.
    replace (16 ^ N.of_nat q) with (16 ^ N.of_nat m * 16 ^ N.of_nat (q - m)) by (rewrite <- N.pow_add_r; f_equal; lia).
    assert (2 <= 16 ^ N.of_nat (q - m)) as G.
    { replace (q - m)%nat with (S (q - m - 1)) by lia. rewrite Nat2N.inj_succ, N.pow_succ_r'. pose proof (pow16_pos (q - m - 1)). lia. }
    pose proof (pow16_pos m) as Pm. set (x := 16 ^ N.of_nat m) in *. set (y := 16 ^ N.of_nat (q - m)) in *.
    replace (n * (x * y) + (x * y - 1)) with (n * y * x + (x * (y - 1) + (x - 1))) by nia.
    replace (n * (x * y)) with (n * y * x) by nia.
    rewrite N.div_mul by lia. rewrite N.div_add_l by lia. rewrite (N.mul_comm x). rewrite N.div_add_l by lia. rewrite (N.div_small (x - 1) x) by lia. lia. }
  assert (forall m, (q <= m)%nat -> N.shiftr a (4 * N.of_nat m) = N.shiftr b (4 * N.of_nat m)) as Hi.
  { intros m Hm. replace m with (q + (m - q))%nat by lia. rewrite !N.shiftr_div_pow2, !pow16. rewrite Nat2N.inj_add, N.pow_add_r, <- !N.div_div by (apply N.pow_nonzero; discriminate).
    f_equal. unfold b, a. rewrite N.div_mul, N.div_add_l by lia. rewrite (N.div_small (_ - 1)) by lia. lia. }
  assert (d = q - 1)%nat as ->.
  { destruct (Nat.lt_trichotomy d (q - 1)) as [L|[L|L]]; [|assumption|].
    - exfalso. apply (Lo (S d)); [lia|]. replace (4 * N.of_nat (S d)) with (4 * N.of_nat d + 4) by lia. exact Es.
    - exfalso. apply Ed; [lia|]. apply Hi. lia. }
  replace (4 * N.of_nat (q - 1) + 4) with (4 * N.of_nat q) in * by lia.
  assert (N.shiftr a (4 * N.of_nat q) = n) as En by (unfold a; rewrite N.shiftr_div_pow2, pow16, N.div_mul by lia; reflexivity).
  assert (N.shiftr (N.ldiff a (N.ones (4 * N.of_nat q))) (4 * N.of_nat q) = n) as ->.
  { refine (eq_trans _ En). apply N.bits_inj. intros i. rewrite !N.shiftr_spec', N.ldiff_spec, N.ones_spec_high by lia. apply andb_true_r. }
  rewrite !N.land_ones, N.ones_equiv, pow16.
  replace (a mod 16 ^ N.of_nat q) with 0 by (unfold a; rewrite N.mod_mul by lia; reflexivity).
  replace (b mod 16 ^ N.of_nat q) with (N.pred (16 ^ N.of_nat q)).
  2:{ unfold b, a. rewrite N.add_comm, N.mod_add, N.mod_small by lia. lia. }
  rewrite !N.eqb_refl. cbn [andb]. unfold marks. do 4 f_equal. rewrite N.mul_comm, N.div_mul, Nat2N.id by discriminate. reflexivity.
Qed.

Lemma if_hex n q : n * 16 ^ N.of_nat q + (16 ^ N.of_nat q - 1) <= top -> (1 <= q)%nat ->
  let h := if n =? 0 then [] else hex n in numeral h n /\ (length h + q <= 6)%nat.
Proof.
  intros Ht Hq. pose proof (pow16_pos q) as P. cbn zeta. destruct (n =? 0) eqn:Z.
  - apply N.eqb_eq in Z as ->. split; [constructor|]. cbn.
    assert (16 ^ N.of_nat q < 16 ^ N.of_nat 6 + 1) as L by (pose proof top_six; lia).
    destruct (Nat.le_gt_cases q 6) as [|G]; [assumption|]. exfalso.
    assert (16 ^ N.of_nat 7 <= 16 ^ N.of_nat q) as K by (apply N.pow_le_mono_r; [discriminate|lia]). change (16 ^ N.of_nat 7) with 268435456 in K. change (16 ^ N.of_nat 6) with 16777216 in L. lia.
  - apply N.eqb_neq in Z. assert (n <= top) as Hn by nia. split; [apply hex_spec; assumption|].
    destruct (hex_spec n Hn) as (_ & L1 & [E|E]).
    + assert (16 ^ N.of_nat q < 16 ^ N.of_nat 6) as L by (pose proof top_six; nia). apply N.pow_lt_mono_r_iff in L; lia.
    + assert (16 ^ N.of_nat (length (hex n) - 1) * 16 ^ N.of_nat q < 16 ^ N.of_nat 6) as L by (pose proof top_six; nia).
      rewrite <- N.pow_add_r in L. apply N.pow_lt_mono_r_iff in L; lia.
Qed.
Theorem print_denotes a b : a <= b -> b <= top -> denotes (print a b) a b.
Proof.
  intros Hab Hb. unfold print. destruct (wildcard a b) as [t|] eqn:W.
  - destruct (wildcard_some a b t Hab Hb W) as (n & q & Hq & -> & -> & ->).
    destruct (if_hex n q Hb Hq) as (N1 & N2). apply (Wild "U"%char); [constructor|assumption..].
  - cbn [plus app]. destruct (b =? a) eqn:E.
    + apply N.eqb_eq in E as ->. rewrite app_nil_r. apply Single; [constructor|apply hex_spec|apply hex_six|]; assumption.
    + apply Range; try assumption; [constructor|apply hex_spec|apply hex_spec|apply hex_six|apply hex_six]; lia.
Qed.

(** ** The meaning of a text is unique *)
Lemma split_digits h1 c1 r1 h2 c2 r2 : Forall is_digit h1 -> Forall is_digit h2 -> ~ is_digit c1 -> ~ is_digit c2 ->
  h1 ++ c1 :: r1 = h2 ++ c2 :: r2 -> h1 = h2 /\ c1 = c2 /\ r1 = r2.
Proof.
  revert h2. induction h1 as [|x h1 IH]; intros [|y h2] F1 F2 N1 N2 E; cbn in E; injection E.
  - auto.
  - intros _ ->. inversion F2. contradiction.
  - intros _ ->. inversion F1. contradiction.
  - intros E' ->. inversion F1. inversion F2. destruct (IH h2) as (-> & A); auto.
Qed.
Lemma no_split h1 h2 c r : Forall is_digit h1 -> ~ is_digit c -> h1 <> h2 ++ c :: r.
Proof. intros F N ->. apply Forall_app in F as [_ F]. inversion F. contradiction. Qed.
Lemma mark_no_digit : ~ is_digit "?"%char.
Proof. now intros [d [=]]. Qed.
Lemma dash_no_digit : ~ is_digit "-"%char.
Proof. now intros [d [=]]. Qed.
Lemma repeat_mark q : (1 <= q)%nat -> repeat "?"%char q = "?"%char :: repeat "?"%char (q - 1).
Proof. destruct q; [lia|]. cbn. now rewrite Nat.sub_0_r. Qed.
Theorem denotes_unique t a b c d : denotes t a b -> denotes t c d -> a = c /\ b = d.
Proof.
  intros H1 H2.
  destruct H1 as [u h n Hu Hn Hl Ht|u h n q Hu Hn Hq Hl Ht|u h g x y Hu Hn Hm Hl Hl' Hxy Ht];
  match goal with H : denotes ?T _ _ |- _ => remember T as t' eqn:Et end;
  destruct H2 as [u' h' n' Hu' Hn' Hl2 Ht'|u' h' n' q' Hu' Hn' Hq' Hl2 Ht'|u' h' g' x' y' Hu' Hn' Hm' Hl2 Hl2' Hxy' Ht'];
  injection Et as Eu H0.
  - subst h'. rewrite (numeral_unique _ _ Hn _ Hn'). auto.
  - exfalso. rewrite repeat_mark in H0 by assumption. symmetry in H0. exact (no_split _ _ _ _ (numeral_digits _ _ Hn) mark_no_digit H0).
  - exfalso. symmetry in H0. exact (no_split _ _ _ _ (numeral_digits _ _ Hn) dash_no_digit H0).
  - exfalso. rewrite repeat_mark in H0 by assumption. exact (no_split _ _ _ _ (numeral_digits _ _ Hn') mark_no_digit H0).
  - rewrite (repeat_mark q), (repeat_mark q') in H0 by assumption.
    destruct (split_digits _ _ _ _ _ _ (numeral_digits _ _ Hn') (numeral_digits _ _ Hn) mark_no_digit mark_no_digit H0) as (-> & _ & Q).
    apply (f_equal (@length _)) in Q. rewrite !repeat_length in Q. assert (q' = q) as -> by lia.
    rewrite (numeral_unique _ _ Hn _ Hn'). auto.
  - exfalso. rewrite repeat_mark in H0 by assumption.
    destruct (split_digits _ _ _ _ _ _ (numeral_digits _ _ Hn') (numeral_digits _ _ Hn) dash_no_digit mark_no_digit H0) as (_ & Q & _). discriminate.
  - exfalso. exact (no_split _ _ _ _ (numeral_digits _ _ Hn') dash_no_digit H0).
  - exfalso. rewrite repeat_mark in H0 by assumption.
    destruct (split_digits _ _ _ _ _ _ (numeral_digits _ _ Hn') (numeral_digits _ _ Hn) mark_no_digit dash_no_digit H0) as (_ & Q & _). discriminate.
  - destruct (split_digits _ _ _ _ _ _ (numeral_digits _ _ Hn') (numeral_digits _ _ Hn) dash_no_digit dash_no_digit H0) as (-> & _ & ->).
    rewrite (numeral_unique _ _ Hn _ Hn'), (numeral_unique _ _ Hm _ Hm'). auto.
Qed.

(** ** No text with the same meaning is shorter *)
Theorem print_shortest t a b : denotes t a b -> (length (print a b) <= length t)%nat.
Proof.
  intros H. inversion H as [u h n Hu Hn Hl Ht|u h n q Hu Hn Hq Hl Ht|u h g x y Hu Hn Hm Hl Hl' Hxy Ht]; subst.
  - unfold print, wildcard. rewrite N.eqb_refl. cbn [plus app length]. rewrite app_nil_r.
    destruct (hex_shortest h b Ht Hn); lia.
  - unfold print. rewrite wildcard_complete by (try assumption; lia). cbn [plus app length]. rewrite !app_length, repeat_length.
    destruct (n =? 0) eqn:Z; [cbn; lia|]. assert (n <= top) as Hn' by (pose proof (pow16_pos q); nia).
    destruct (hex_shortest h n Hn' Hn) as [E|]; [|lia]. destruct h; [|discriminate]. inversion Hn; [subst; discriminate|].
    now destruct t.
  - unfold print. destruct (wildcard a b) as [t|] eqn:W.
    + destruct (wildcard_some a b t Hxy Ht W) as (n & q & Hq & -> & -> & ->). cbn [plus app length]. rewrite !app_length, repeat_length. cbn [length].
      pose proof (pow16_pos q) as P.
      assert (n * 16 ^ N.of_nat q <= top) as T1 by lia.
      assert (q <= length g)%nat as G1.
      { apply numeral_bound in Hm. destruct (Nat.le_gt_cases q (length g)) as [|L]; [assumption|]. exfalso.
        assert (16 * 16 ^ N.of_nat (length g) <= 16 ^ N.of_nat q) as K.
        { rewrite <- N.pow_succ_r'. apply N.pow_le_mono_r; [discriminate|lia]. }
        pose proof (pow16_pos (length g)). lia. }
      destruct (n =? 0) eqn:Z; [cbn; lia|]. apply N.eqb_neq in Z. assert (n <= top) as Hn' by nia.
      destruct (hex_spec n Hn') as (_ & _ & [E|E]); [lia|].
      apply numeral_bound in Hm. assert (16 ^ N.of_nat (length (hex n) - 1 + q) < 16 ^ N.of_nat (length g)) as L by (rewrite Nat2N.inj_add, N.pow_add_r; nia).
      apply N.pow_lt_mono_r_iff in L; lia.
    + cbn [plus app length]. rewrite !app_length. cbn [length]. assert (a <= top) as Ha by lia.
      destruct (hex_shortest h a Ha Hn); [lia|]. destruct (b =? a); cbn [length]; [lia|]. destruct (hex_shortest g b Ht Hm); lia.
Qed.
