From Coq Require Import List Bool String Ascii NArith ZArith Lia ZifyN.
From Verif Require Import ColorModel ColorSpec.
Import ListNotations.
Local Open Scope string_scope.
Local Open Scope N_scope.
Ltac Zify.zify_post_hook ::= Z.div_mod_to_equations.

(** ** Bits *)
Lemma lor_add a b n : b < 2 ^ n -> N.lor (a * 2 ^ n) b = a * 2 ^ n + b.
Proof.
  intros H. assert (E : N.land (a * 2 ^ n) b = 0).
  { apply N.bits_inj. intros i. rewrite N.land_spec, N.bits_0. destruct (N.lt_ge_cases i n) as [L|L].
    - rewrite (N.mul_pow2_bits_low a n i L). reflexivity.
    - assert (X : N.testbit b i = false).
      { destruct (N.eq_dec b 0) as [->|Z]; [apply N.bits_0|]. apply N.bits_above_log2. apply N.log2_lt_pow2; [lia|].
        apply N.lt_le_trans with (2 ^ n); [exact H|]. apply N.pow_le_mono_r; lia. }
      rewrite X. apply andb_false_r. }
  rewrite (N.add_nocarry_lxor _ _ E). symmetry. exact (N.lxor_lor _ _ E).
Qed.
Lemma mask v n k : N.land v (N.shiftl (N.ones k) n) = (v / 2 ^ n) mod 2 ^ k * 2 ^ n.
Proof.
  rewrite <- N.shiftl_mul_pow2, <- N.land_ones, <- N.shiftr_div_pow2. apply N.bits_inj. intros i.
  destruct (N.lt_ge_cases i n) as [L|L].
  - rewrite N.land_spec, !(N.shiftl_spec_low _ _ _ L). apply andb_false_r.
  - rewrite N.land_spec, !N.shiftl_spec_high', N.land_spec, N.shiftr_spec' by exact L. replace (i - n + n) with i by lia. reflexivity.
Qed.
Lemma mask_lit v m n k : m = N.shiftl (N.ones k) n -> N.land v m = (v / 2 ^ n) mod 2 ^ k * 2 ^ n.
Proof. intros ->. apply mask. Qed.

(** Eight hexadecimal digits *)
Definition nibbles (a b c d e f g h : N) : N := ((((((a * 16 + b) * 16 + c) * 16 + d) * 16 + e) * 16 + f) * 16 + g) * 16 + h.
Lemma compact_nibbles a b c d e f g h : a < 16 -> b < 16 -> c < 16 -> d < 16 -> e < 16 -> f < 16 -> g < 16 -> h < 16 ->
  compact_hex (nibbles a b c d e f g h) = nibbles 0 0 0 0 b c f g.
Proof.
  intros A B C D E F G H. unfold compact_hex. rewrite (mask_lit _ 267386880 20 8), (mask_lit _ 4080 4 8) by reflexivity.
  rewrite !N.shiftr_div_pow2. change (2 ^ 20) with (256 * 2 ^ 12). rewrite N.mul_assoc, N.div_mul by discriminate. rewrite N.div_mul by discriminate.
  change (256 * 2 ^ 12) with 1048576. change (2 ^ 4) with 16. change (2 ^ 8) with 256.
  assert (X : nibbles a b c d e f g h / 1048576 mod 256 = b * 16 + c) by (unfold nibbles; lia).
  assert (Y : nibbles a b c d e f g h / 16 mod 256 = f * 16 + g) by (unfold nibbles; lia).
  rewrite X, Y. change 256 with (2 ^ 8) at 1. rewrite lor_add; [unfold nibbles; lia|change (2 ^ 8) with 256; lia].
Qed.
Lemma expand_nibbles a b c d : a < 16 -> b < 16 -> c < 16 -> d < 16 ->
  expand_hex (nibbles 0 0 0 0 a b c d) = nibbles a a b b c c d d.
Proof.
  intros A B C D. unfold expand_hex.
  rewrite (mask_lit _ 61440 12 4), (mask_lit _ 65280 8 8), (mask_lit _ 4080 4 8), (mask_lit _ 255 0 8), (mask_lit _ 15 0 4) by reflexivity.
  rewrite !N.shiftl_mul_pow2. change (2 ^ 0) with 1. rewrite !N.div_1_r, !N.mul_1_r. change (2 ^ 8) with 256. change (2 ^ 4) with 16. change (2 ^ 12) with 4096.
  assert (X : nibbles 0 0 0 0 a b c d / 4096 mod 16 = a) by (unfold nibbles; lia).
  assert (Y : nibbles 0 0 0 0 a b c d / 256 mod 256 = a * 16 + b) by (unfold nibbles; lia).
  assert (Z : nibbles 0 0 0 0 a b c d / 16 mod 256 = b * 16 + c) by (unfold nibbles; lia).
  assert (V : nibbles 0 0 0 0 a b c d mod 256 = c * 16 + d) by (unfold nibbles; lia).
  assert (T : nibbles 0 0 0 0 a b c d mod 16 = d) by (unfold nibbles; lia).
  rewrite X, Y, Z, V, T.
  replace (a * 4096 * 2 ^ 16) with (a * 2 ^ 28) by (change (2 ^ 28) with (4096 * 2 ^ 16); apply N.mul_assoc).
  replace ((a * 16 + b) * 256 * 4096) with ((a * 16 + b) * 2 ^ 20) by (change (2 ^ 20) with 1048576; lia).
  replace ((b * 16 + c) * 16 * 256) with ((b * 16 + c) * 2 ^ 12) by (change (2 ^ 12) with 4096; lia).
  replace ((c * 16 + d) * 16) with ((c * 16 + d) * 2 ^ 4) by reflexivity.
  rewrite lor_add by (change (2 ^ 28) with 268435456; change (2 ^ 20) with 1048576; lia).
  replace (a * 2 ^ 28 + (a * 16 + b) * 2 ^ 20) with ((a * 256 + a * 16 + b) * 2 ^ 20) by (change (2 ^ 28) with 268435456; change (2 ^ 20) with 1048576; lia).
  rewrite lor_add by (change (2 ^ 20) with 1048576; change (2 ^ 12) with 4096; lia).
  replace ((a * 256 + a * 16 + b) * 2 ^ 20 + (b * 16 + c) * 2 ^ 12) with (((a * 256 + a * 16 + b) * 256 + b * 16 + c) * 2 ^ 12) by (change (2 ^ 20) with 1048576; change (2 ^ 12) with 4096; lia).
  rewrite lor_add by (change (2 ^ 4) with 16; change (2 ^ 12) with 4096; lia).
  replace (((a * 256 + a * 16 + b) * 256 + b * 16 + c) * 2 ^ 12 + (c * 16 + d) * 2 ^ 4) with ((((a * 256 + a * 16 + b) * 256 + b * 16 + c) * 256 + c * 16 + d) * 2 ^ 4) by (change (2 ^ 4) with 16; change (2 ^ 12) with 4096; lia).
  rewrite lor_add by (change (2 ^ 4) with 16; lia). unfold nibbles. change (2 ^ 4) with 16. lia.
Qed.
Lemma nibbles_inj a b c d e f g h a' b' c' d' e' f' g' h' : a < 16 -> b < 16 -> c < 16 -> d < 16 -> e < 16 -> f < 16 -> g < 16 -> h < 16 ->
  a' < 16 -> b' < 16 -> c' < 16 -> d' < 16 -> e' < 16 -> f' < 16 -> g' < 16 -> h' < 16 ->
  nibbles a b c d e f g h = nibbles a' b' c' d' e' f' g' h' -> a = a' /\ b = b' /\ c = c' /\ d = d' /\ e = e' /\ f = f' /\ g = g' /\ h = h'.
Proof. unfold nibbles. intros. lia. Qed.

(** ** Hexadecimal text *)
Fixpoint fixed (w : nat) (v : N) (acc : string) : string :=
  match w with O => acc | S n => fixed n (v / 16) (String (hex_char (v mod 16)) acc) end.
Lemma app_assoc_s a b c : ((a ++ b) ++ c = a ++ (b ++ c))%string.
Proof. induction a as [|x a IH]; cbn [append]; [reflexivity|rewrite IH; reflexivity]. Qed.
Lemma app_length_s a b : String.length (a ++ b) = (String.length a + String.length b)%nat.
Proof. induction a as [|x a IH]; cbn [append String.length]; [reflexivity|rewrite IH; reflexivity]. Qed.
Lemma hex_digits_acc fuel : forall v acc, hex_digits fuel v acc = hex_digits fuel v "" ++ acc.
Proof.
  induction fuel as [|n IH]; intros v acc; [reflexivity|]. cbn [hex_digits]. destruct (v <? 16); [reflexivity|].
  rewrite (IH _ (String _ acc)), (IH _ (String _ "")), app_assoc_s. reflexivity.
Qed.
Lemma zeros_length n : String.length (zeros n) = n.
Proof. induction n; cbn [zeros String.length]; congruence. Qed.
Lemma zeros_snoc n s : zeros n ++ String "0" s = zeros (S n) ++ s.
Proof. induction n as [|n IH]; [reflexivity|]. cbn [zeros append] in *. rewrite IH. reflexivity. Qed.
Lemma fixed_zero w : forall acc, fixed w 0 acc = zeros w ++ acc.
Proof.
  induction w as [|w IH]; intros acc; [reflexivity|]. cbn [fixed]. change (0 / 16) with 0. change (hex_char (0 mod 16)) with "0"%char.
  rewrite IH. apply zeros_snoc.
Qed.
Lemma fixed_acc w : forall v acc, fixed w v acc = fixed w v "" ++ acc.
Proof.
  induction w as [|n IH]; intros v acc; [reflexivity|]. cbn [fixed]. rewrite (IH _ (String _ acc)), (IH _ (String _ "")), app_assoc_s. reflexivity.
Qed.
Lemma fmt_fixed w : forall fuel v, (w <= fuel)%nat -> (1 <= w)%nat -> v < 16 ^ N.of_nat w ->
  zeros (w - String.length (hex_digits fuel v "")) ++ hex_digits fuel v "" = fixed w v "".
Proof.
  induction w as [|w IH]; intros fuel v L M B; [lia|]. destruct fuel as [|fuel]; [lia|]. cbn [hex_digits fixed].
  destruct (v <? 16) eqn:E.
  - apply N.ltb_lt in E. assert (Z : v / 16 = 0) by lia. rewrite Z, fixed_zero. cbn [String.length]. replace (S w - 1)%nat with w by lia. reflexivity.
  - apply N.ltb_ge in E. rewrite (fixed_acc w), (hex_digits_acc fuel), app_length_s. cbn [String.length].
    replace (S w - (String.length (hex_digits fuel (v / 16) "") + 1))%nat with (w - String.length (hex_digits fuel (v / 16) ""))%nat by lia.
    rewrite <- app_assoc_s. destruct w as [|w]; [change (16 ^ N.of_nat 1) with 16 in B; lia|]. rewrite IH; [reflexivity|lia|lia|].
    rewrite (Nnat.Nat2N.inj_succ (S w)), N.pow_succ_r' in B. lia.
Qed.
Lemma fmt_hex_fixed w v : (1 <= w <= 8)%nat -> v < 16 ^ N.of_nat w -> fmt_hex w v = fixed w v "".
Proof. intros L B. apply fmt_fixed; [lia|lia|exact B]. Qed.
Lemma hex_value_char n : n < 16 -> hex_value (hex_char n) = Some n.
Proof.
  intros H. assert (In n (map N.of_nat (seq 0 16))) as J by (apply in_map_iff; exists (N.to_nat n); split; [apply Nnat.N2Nat.id|apply in_seq; lia]).
  cbn in J. repeat (destruct J as [<-|J]; [reflexivity|]). destruct J.
Qed.
(** The characters of the digits *)
Fixpoint of_digits (l : list N) : string := match l with [] => "" | x :: r => String (hex_char x) (of_digits r) end.
Lemma hex_values_digits l : Forall (fun n => n < 16) l -> hex_values (of_digits l) = Some l.
Proof. induction 1 as [|x l H _ IH]; [reflexivity|]. cbn [of_digits hex_values]. rewrite (hex_value_char x H), IH. reflexivity. Qed.
Lemma shift_nibbles a b c d e f g h : a < 16 -> b < 16 -> c < 16 -> d < 16 -> e < 16 -> f < 16 -> g < 16 -> h < 16 ->
  nibbles a b c d e f g h / 16 = nibbles 0 a b c d e f g /\ nibbles a b c d e f g h mod 16 = h.
Proof. unfold nibbles. intros. lia. Qed.
Lemma fixed8 w a b c d e f g h : (w <= 8)%nat -> a < 16 -> b < 16 -> c < 16 -> d < 16 -> e < 16 -> f < 16 -> g < 16 -> h < 16 ->
  fixed w (nibbles a b c d e f g h) "" = of_digits (skipn (8 - w) [a; b; c; d; e; f; g; h]).
Proof.
  intros L A B C D E F G H. assert (Z : 0 < 16) by lia.
  do 9 (destruct w as [|w]; [cbn [fixed];
    repeat match goal with |- context [nibbles ?x1 ?x2 ?x3 ?x4 ?x5 ?x6 ?x7 ?x8 mod 16] =>
      rewrite (proj2 (shift_nibbles x1 x2 x3 x4 x5 x6 x7 x8 ltac:(assumption) ltac:(assumption) ltac:(assumption) ltac:(assumption) ltac:(assumption) ltac:(assumption) ltac:(assumption) ltac:(assumption)));
      rewrite ?(proj1 (shift_nibbles x1 x2 x3 x4 x5 x6 x7 x8 ltac:(assumption) ltac:(assumption) ltac:(assumption) ltac:(assumption) ltac:(assumption) ltac:(assumption) ltac:(assumption) ltac:(assumption)))
    end; reflexivity|]). lia.
Qed.

(** ** Named colours *)
Lemma name_facts v n : short_color_name v = Some n ->
  read_color n = Some (v / 65536, v / 256 mod 256, v mod 256, 255)
  /\ (String.length n <= (if (v =? expand_hex (compact_hex v))%N then 4 else 7))%nat.
Proof.
  unfold short_color_name. intros H.
  repeat (match type of H with match ?x with _ => _ end = _ => destruct x; try discriminate H end);
  injection H as <-; (split; [vm_compute; reflexivity|vm_compute; repeat constructor]).
Qed.

(** ** Bytes *)
Definition hi (v : N) : N := v / 16.
Definition lo (v : N) : N := v mod 16.
Lemma byte_split v : v < 256 -> hi v < 16 /\ lo v < 16 /\ v = 16 * hi v + lo v.
Proof. unfold hi, lo. lia. Qed.
Lemma opaque_nibbles r g b : r < 256 -> g < 256 -> b < 256 ->
  N.lor (N.lor (N.shiftl r 16) (N.shiftl g 8)) b = nibbles 0 0 (hi r) (lo r) (hi g) (lo g) (hi b) (lo b).
Proof.
  intros R G B. rewrite !N.shiftl_mul_pow2. rewrite lor_add by (change (2 ^ 8) with 256; change (2 ^ 16) with 65536; lia).
  replace (r * 2 ^ 16 + g * 2 ^ 8) with ((r * 256 + g) * 2 ^ 8) by (change (2 ^ 8) with 256; change (2 ^ 16) with 65536; lia).
  rewrite lor_add by (change (2 ^ 8) with 256; lia). change (2 ^ 8) with 256. unfold nibbles, hi, lo. lia.
Qed.
Lemma full_nibbles r g b a : r < 256 -> g < 256 -> b < 256 -> a < 256 ->
  N.lor (N.lor (N.lor (N.shiftl r 24) (N.shiftl g 16)) (N.shiftl b 8)) a = nibbles (hi r) (lo r) (hi g) (lo g) (hi b) (lo b) (hi a) (lo a).
Proof.
  intros R G B A. rewrite !N.shiftl_mul_pow2. rewrite lor_add by (change (2 ^ 24) with 16777216; change (2 ^ 16) with 65536; lia).
  replace (r * 2 ^ 24 + g * 2 ^ 16) with ((r * 256 + g) * 2 ^ 16) by (change (2 ^ 24) with 16777216; change (2 ^ 16) with 65536; lia).
  rewrite lor_add by (change (2 ^ 8) with 256; change (2 ^ 16) with 65536; lia).
  replace ((r * 256 + g) * 2 ^ 16 + b * 2 ^ 8) with (((r * 256 + g) * 256 + b) * 2 ^ 8) by (change (2 ^ 8) with 256; change (2 ^ 16) with 65536; lia).
  rewrite lor_add by (change (2 ^ 8) with 256; lia). change (2 ^ 8) with 256. unfold nibbles, hi, lo. lia.
Qed.
Lemma all_bytes (P : N -> bool) : forallb P (map N.of_nat (seq 0 256)) = true -> forall v, v < 256 -> P v = true.
Proof.
  intros H v B. apply (proj1 (forallb_forall _ _) H). apply in_map_iff. exists (N.to_nat v). split; [apply Nnat.N2Nat.id|]. apply in_seq. lia.
Qed.

(** Can the digits be halved? *)
Definition paired (v : N) : Prop := hi v = lo v.
Lemma opaque_compact r g b : r < 256 -> g < 256 -> b < 256 ->
  let hex := nibbles 0 0 (hi r) (lo r) (hi g) (lo g) (hi b) (lo b) in
  (hex =? expand_hex (compact_hex hex)) = true <-> paired r /\ paired g /\ paired b.
Proof.
  intros R G B hex. destruct (byte_split r R) as (R1 & R0 & _), (byte_split g G) as (G1 & G0 & _), (byte_split b B) as (B1 & B0 & _).
  assert (Z : 0 < 16) by lia. unfold hex. rewrite compact_nibbles, expand_nibbles by assumption. rewrite N.eqb_eq. unfold paired. split.
  - intros H. apply nibbles_inj in H; try assumption. intuition congruence.
  - intros (-> & -> & ->). reflexivity.
Qed.
Lemma full_compact r g b a : r < 256 -> g < 256 -> b < 256 -> a < 256 ->
  let hex := nibbles (hi r) (lo r) (hi g) (lo g) (hi b) (lo b) (hi a) (lo a) in
  (hex =? expand_hex (compact_hex hex)) = true <-> paired r /\ paired g /\ paired b /\ paired a.
Proof.
  intros R G B A hex. destruct (byte_split r R) as (R1 & R0 & _), (byte_split g G) as (G1 & G0 & _), (byte_split b B) as (B1 & B0 & _), (byte_split a A) as (A1 & A0 & _).
  unfold hex. rewrite compact_nibbles, expand_nibbles by assumption. rewrite N.eqb_eq. unfold paired. split.
  - intros H. apply nibbles_inj in H; try assumption. intuition congruence.
  - intros (-> & -> & -> & ->). reflexivity.
Qed.
Lemma small3 a b c : a < 16 -> b < 16 -> c < 16 -> nibbles 0 0 0 0 0 a b c < 16 ^ N.of_nat 3.
Proof. intros. change (16 ^ N.of_nat 3) with 4096. unfold nibbles. lia. Qed.
Lemma small4 a b c d : a < 16 -> b < 16 -> c < 16 -> d < 16 -> nibbles 0 0 0 0 a b c d < 16 ^ N.of_nat 4.
Proof. intros. change (16 ^ N.of_nat 4) with 65536. unfold nibbles. lia. Qed.
Lemma small6 a b c d e f : a < 16 -> b < 16 -> c < 16 -> d < 16 -> e < 16 -> f < 16 -> nibbles 0 0 a b c d e f < 16 ^ N.of_nat 6.
Proof. intros. change (16 ^ N.of_nat 6) with 16777216. unfold nibbles. lia. Qed.
Lemma small8 a b c d e f g h : a < 16 -> b < 16 -> c < 16 -> d < 16 -> e < 16 -> f < 16 -> g < 16 -> h < 16 -> nibbles a b c d e f g h < 16 ^ N.of_nat 8.
Proof. intros. change (16 ^ N.of_nat 8) with 4294967296. unfold nibbles. lia. Qed.

Lemma opaque_text compile_hex minify r g b : r < 256 -> g < 256 -> b < 256 ->
  let hex := nibbles 0 0 (hi r) (lo r) (hi g) (lo g) (hi b) (lo b) in
  (exists n, short_color_name hex = Some n /\ print_rgba compile_hex minify (RGBA r g b 255) = n)
  \/ (short_color_name hex = None /\ (paired r /\ paired g /\ paired b) /\ print_rgba compile_hex minify (RGBA r g b 255) = String "#" (of_digits [hi r; lo g; hi b]))
  \/ (short_color_name hex = None /\ ~ (paired r /\ paired g /\ paired b) /\
      print_rgba compile_hex minify (RGBA r g b 255) = String "#" (of_digits [hi r; lo r; hi g; lo g; hi b; lo b])).
Proof.
  intros R G B hex. unfold print_rgba. cbn [alpha red green blue]. change (255 =? 255) with true. cbn iota. rewrite (opaque_nibbles r g b R G B). fold hex.
  destruct (byte_split r R) as (R1 & R0 & _), (byte_split g G) as (G1 & G0 & _), (byte_split b B) as (B1 & B0 & _). assert (Z : 0 < 16) by lia.
  destruct (short_color_name hex) as [n|]; [left; exists n; split; reflexivity|]. right.
  pose proof (opaque_compact r g b R G B) as C. cbv zeta in C. fold hex in C. destruct (hex =? expand_hex (compact_hex hex)).
  - left. split; [reflexivity|]. split; [apply C; reflexivity|]. unfold hex. rewrite compact_nibbles by assumption.
    rewrite fmt_hex_fixed by (auto using small3 with arith). rewrite fixed8 by (assumption || auto with arith). reflexivity.
  - right. split; [reflexivity|]. split; [intros P; apply C in P; discriminate P|]. unfold hex.
    rewrite fmt_hex_fixed by (auto using small6 with arith). rewrite fixed8 by (assumption || auto with arith). reflexivity.
Qed.
Lemma full_text minify r g b a : r < 256 -> g < 256 -> b < 256 -> a < 256 -> a <> 255 ->
  ((paired r /\ paired g /\ paired b /\ paired a) /\ print_rgba false minify (RGBA r g b a) = String "#" (of_digits [lo r; hi g; lo b; hi a]))
  \/ (~ (paired r /\ paired g /\ paired b /\ paired a) /\
      print_rgba false minify (RGBA r g b a) = String "#" (of_digits [hi r; lo r; hi g; lo g; hi b; lo b; hi a; lo a])).
Proof.
  intros R G B A X. unfold print_rgba. cbn [alpha red green blue]. rewrite (proj2 (N.eqb_neq _ _) X). rewrite (full_nibbles r g b a R G B A).
  destruct (byte_split r R) as (R1 & R0 & _), (byte_split g G) as (G1 & G0 & _), (byte_split b B) as (B1 & B0 & _), (byte_split a A) as (A1 & A0 & _).
  set (hex := nibbles _ _ _ _ _ _ _ _) in *. assert (Z : 0 < 16) by lia.
  pose proof (full_compact r g b a R G B A) as C. cbv zeta in C. fold hex in C. destruct (hex =? expand_hex (compact_hex hex)).
  - left. split; [apply C; reflexivity|]. unfold hex. rewrite compact_nibbles by assumption.
    rewrite fmt_hex_fixed by (auto using small4 with arith). rewrite fixed8 by (assumption || auto with arith). reflexivity.
  - right. split; [intros P; apply C in P; discriminate P|]. unfold hex.
    rewrite fmt_hex_fixed by (auto using small8 with arith). rewrite fixed8 by (assumption || auto with arith). reflexivity.
Qed.

(** ** rgba() *)
Fixpoint lacks (c : ascii) (s : string) : bool := match s with "" => true | String x r => negb (Ascii.eqb x c) && lacks c r end.
Lemma cut_app c a s : lacks c a = true -> cut c (a ++ String c s) = (a, Some s).
Proof.
  induction a as [|x a IH]; cbn [append cut lacks]; [rewrite Ascii.eqb_refl; reflexivity|]. intros H. apply andb_true_iff in H. destruct H as [X H].
  apply negb_true_iff in X. rewrite X, (IH H). reflexivity.
Qed.
Definition starts_plain (s : string) : bool := match s with String c _ => negb (Ascii.eqb c " ") | "" => false end.
Lemma skip_plain s t : starts_plain s = true -> skip_spaces (s ++ t) = s ++ t.
Proof.
  destruct s as [|c s]; cbn [starts_plain]; [discriminate|]. cbn [append skip_spaces]. intros H. apply negb_true_iff in H.
  destruct c as [[] [] [] [] [] [] [] []]; try reflexivity. discriminate H.
Qed.
Definition good_byte (v : N) : bool :=
  lacks "," (fmt_dec v) && starts_plain (fmt_dec v) && match byte_of (fmt_dec v) with Some w => w =? v | None => false end.
Lemma byte_text v : v < 256 -> lacks "," (fmt_dec v) = true /\ starts_plain (fmt_dec v) = true /\ byte_of (fmt_dec v) = Some v.
Proof.
  intros H. pose proof (all_bytes good_byte ltac:(vm_compute; reflexivity) v H) as G. unfold good_byte in G.
  apply andb_true_iff in G. destruct G as [G E]. apply andb_true_iff in G. destruct G as [A B]. split; [exact A|]. split; [exact B|].
  destruct (byte_of (fmt_dec v)) as [w|]; [apply N.eqb_eq in E; rewrite E; reflexivity|discriminate E].
Qed.
Definition alpha_text (a : N) : string := let (k, d) := rounded_alpha a in fmt_decimal k d.
Definition good_alpha (v : N) : bool :=
  lacks ")" (alpha_text v) && starts_plain (alpha_text v) && match alpha_byte (alpha_text v) with Some w => w =? v | None => false end.
Lemma alpha_facts v : v < 256 -> lacks ")" (alpha_text v) = true /\ starts_plain (alpha_text v) = true /\ alpha_byte (alpha_text v) = Some v.
Proof.
  intros H. pose proof (all_bytes good_alpha ltac:(vm_compute; reflexivity) v H) as G. unfold good_alpha in G.
  apply andb_true_iff in G. destruct G as [G E]. apply andb_true_iff in G. destruct G as [A B]. split; [exact A|]. split; [exact B|].
  destruct (alpha_byte (alpha_text v)) as [w|]; [apply N.eqb_eq in E; rewrite E; reflexivity|discriminate E].
Qed.
Lemma skip_comma (minify : bool) s t : starts_plain s = true -> skip_spaces ((if minify then "" else " ") ++ s ++ t) = s ++ t.
Proof. intros H. destruct minify; cbn [append skip_spaces]; apply skip_plain; exact H. Qed.
Lemma comma_split (minify : bool) s : comma minify ++ s = String "," ((if minify then "" else " ") ++ s).
Proof. destruct minify; reflexivity. Qed.
Lemma rgba_read minify r g b a : r < 256 -> g < 256 -> b < 256 -> a < 256 ->
  rgba_args (fmt_dec r ++ comma minify ++ fmt_dec g ++ comma minify ++ fmt_dec b ++ comma minify ++ alpha_text a ++ ")") = Some (r, g, b, a).
Proof.
  intros R G B A. destruct (byte_text r R) as (R1 & _ & R2), (byte_text g G) as (G1 & G3 & G2), (byte_text b B) as (B1 & B3 & B2), (alpha_facts a A) as (A1 & A3 & A2).
  unfold rgba_args. rewrite !comma_split. rewrite (cut_app "," (fmt_dec r)) by exact R1. rewrite (skip_comma minify (fmt_dec g)) by exact G3.
  rewrite (cut_app "," (fmt_dec g)) by exact G1. rewrite (skip_comma minify (fmt_dec b)) by exact B3. rewrite (cut_app "," (fmt_dec b)) by exact B1.
  rewrite (skip_comma minify (alpha_text a)) by exact A3. rewrite (cut_app ")" (alpha_text a)) by exact A1.
  rewrite R2, G2, B2, A2. reflexivity.
Qed.

(** ** Both together *)
Lemma nibbles_channels r g b : r < 256 -> g < 256 -> b < 256 -> let hex := nibbles 0 0 (hi r) (lo r) (hi g) (lo g) (hi b) (lo b) in
  hex / 65536 = r /\ hex / 256 mod 256 = g /\ hex mod 256 = b.
Proof.
  intros R G B hex. assert (E : hex = r * 65536 + g * 256 + b) by (unfold hex, nibbles, hi, lo; lia). rewrite E. clear -R G B. lia.
Qed.
Lemma paired_value v : v < 256 -> paired v -> v = 17 * hi v /\ v = 17 * lo v.
Proof. unfold paired, hi, lo. lia. Qed.
Theorem printed_read compile_hex minify c : is_color c ->
  read_color (print_rgba compile_hex minify c) = Some (red c, green c, blue c, alpha c).
Proof.
  destruct c as [r g b a]. intros (R & G & B & A). cbn [red green blue alpha] in *.
  destruct (byte_split r R) as (R1 & R0 & RE), (byte_split g G) as (G1 & G0 & GE), (byte_split b B) as (B1 & B0 & BE), (byte_split a A) as (A1 & A0 & AE).
  destruct (N.eq_dec a 255) as [->|X].
  - destruct (opaque_text compile_hex minify r g b R G B) as [(n & N & ->)|[(_ & (PR & PG & PB) & ->)|(_ & _ & ->)]].
    + destruct (name_facts _ _ N) as [-> _]. destruct (nibbles_channels r g b R G B) as (-> & -> & ->). reflexivity.
    + cbn [read_color]. unfold hex_color. rewrite hex_values_digits by (repeat constructor; assumption).
      rewrite <- (proj1 (paired_value r R PR)), <- (proj2 (paired_value g G PG)), <- (proj1 (paired_value b B PB)). reflexivity.
    + cbn [read_color]. unfold hex_color. rewrite hex_values_digits by (repeat constructor; assumption). rewrite <- RE, <- GE, <- BE. reflexivity.
  - destruct compile_hex.
    + unfold print_rgba. cbn [alpha red green blue]. rewrite (proj2 (N.eqb_neq _ _) X).
      destruct (minify && (r =? 0) && (g =? 0) && (b =? 0) && (a =? 0)) eqn:T.
      * repeat (apply andb_true_iff in T; let Y := fresh in destruct T as [T Y]; apply N.eqb_eq in Y; subst). reflexivity.
      * pose proof (rgba_read minify r g b a R G B A) as K. unfold alpha_text in K. destruct (rounded_alpha a) as [k d]. exact K.
    + destruct (full_text minify r g b a R G B A X) as [((PR & PG & PB & PA) & ->)|(_ & ->)]; cbn [read_color]; unfold hex_color;
        rewrite hex_values_digits by (repeat constructor; assumption).
      * rewrite <- (proj2 (paired_value r R PR)), <- (proj1 (paired_value g G PG)), <- (proj2 (paired_value b B PB)), <- (proj1 (paired_value a A PA)). reflexivity.
      * rewrite <- RE, <- GE, <- BE, <- AE. reflexivity.
Qed.

(** ** No shorter text *)
Lemma hex_values_length s : forall l, hex_values s = Some l -> String.length s = List.length l /\ Forall (fun n => n < 16) l.
Proof.
  induction s as [|c s IH]; intros l; cbn [hex_values]; [intros [= <-]; split; [reflexivity|constructor]|].
  destruct (hex_value c) as [x|] eqn:E; [|discriminate]. destruct (hex_values s) as [l'|] eqn:E'; [|discriminate]. intros [= <-].
  destruct (IH l' eq_refl) as [L F]. cbn [String.length List.length]. split; [congruence|]. constructor; [|exact F].
  clear -E. unfold hex_value in E. destruct c as [[] [] [] [] [] [] [] []]; vm_compute in E; try discriminate E; injection E as <-; reflexivity.
Qed.
Lemma digits_length l : String.length (of_digits l) = List.length l.
Proof. induction l; cbn; congruence. Qed.
Lemma paired_17 v n : n < 16 -> v = 17 * n -> v < 256 /\ paired v.
Proof. unfold paired, hi, lo. lia. Qed.
Lemma opaque_bound minify r g b : r < 256 -> g < 256 -> b < 256 ->
  (String.length (print_rgba false minify (RGBA r g b 255)) <= 7)%nat
  /\ (paired r -> paired g -> paired b -> String.length (print_rgba false minify (RGBA r g b 255)) <= 4)%nat.
Proof.
  intros R G B. destruct (opaque_text false minify r g b R G B) as [(n & N & ->)|[(_ & P & ->)|(_ & P & ->)]].
  - destruct (name_facts _ _ N) as [_ L]. pose proof (opaque_compact r g b R G B) as C. cbv zeta in C.
    destruct (_ =? _); [split; [lia|intros; exact L]|]. split; [exact L|]. intros PR PG PB. destruct C as [_ C]. discriminate (C (conj PR (conj PG PB))).
  - cbn [String.length]. rewrite digits_length. cbn [List.length]. lia.
  - cbn [String.length]. rewrite digits_length. cbn [List.length]. split; [lia|]. intros PR PG PB. destruct (P (conj PR (conj PG PB))).
Qed.
Lemma any_bound minify c : is_color c ->
  (String.length (print_rgba false minify c) <= 9)%nat
  /\ (paired (red c) -> paired (green c) -> paired (blue c) -> paired (alpha c) -> String.length (print_rgba false minify c) <= 5)%nat.
Proof.
  destruct c as [r g b a]. intros (R & G & B & A). cbn [red green blue alpha] in *. destruct (N.eq_dec a 255) as [->|X].
  - destruct (opaque_bound minify r g b R G B) as [L M]. split; [lia|]. intros PR PG PB _. specialize (M PR PG PB). lia.
  - destruct (full_text minify r g b a R G B A X) as [(_ & ->)|(P & ->)]; cbn [String.length]; rewrite digits_length; cbn [List.length];
      (split; [lia|]); intros PR PG PB PA; [lia|destruct (P (conj PR (conj PG (conj PB PA))))].
Qed.
Definition name_bound (p : string * (N * N * N)) : bool :=
  let '(r, g, b) := snd p in
  forallb (fun minify => Nat.leb (String.length (print_rgba false minify (RGBA r g b 255))) (String.length (fst p))) [true; false].
Theorem shortest (minify : bool) c s : is_color c -> String.prefix "rgba(" s = false ->
  read_color s = Some (red c, green c, blue c, alpha c) -> (String.length (print_rgba false minify c) <= String.length s)%nat.
Proof.
  intros C P H. destruct (any_bound minify c C) as [L9 L5]. destruct c as [r g b a]. destruct C as (R & G & B & A). cbn [red green blue alpha] in *.
  assert (K : (exists t, s = String "#" t /\ hex_color t = Some (r, g, b, a))
    \/ (s = "transparent" /\ (r, g, b, a) = (0, 0, 0, 0)) \/ (exists n, In (s, n) css_names /\ n = (r, g, b) /\ a = 255)).
  { destruct s as [|x s]; [discriminate H|]. destruct (Ascii.eqb x "#") eqn:E; [apply Ascii.eqb_eq in E; subst x; left; exists s; split; [reflexivity|exact H]|].
    right. assert (Q : read_color (String x s) = if String.eqb (String x s) "transparent" then Some (0, 0, 0, 0)
      else match find (fun p => String.eqb (String x s) (fst p)) css_names with Some (_, (r, g, b)) => Some (r, g, b, 255) | None => None end).
    { clear -E P. unfold read_color. destruct x as [[] [] [] [] [] [] [] []]; try reflexivity; [discriminate E|].
      destruct s as [|[[] [] [] [] [] [] [] []] s]; try reflexivity. destruct s as [|[[] [] [] [] [] [] [] []] s]; try reflexivity.
      destruct s as [|[[] [] [] [] [] [] [] []] s]; try reflexivity. destruct s as [|[[] [] [] [] [] [] [] []] s]; try reflexivity.
      cbn in P. destruct s; discriminate P. }
    rewrite Q in H. clear Q. destruct (String.eqb (String x s) "transparent") eqn:T.
    - left. apply String.eqb_eq in T. split; [exact T|]. injection H as <- <- <- <-. reflexivity.
    - right. destruct (find _ css_names) as [[n [[r' g'] b']]|] eqn:F; [|discriminate H]. injection H as -> -> -> <-.
      apply find_some in F. destruct F as [I F]. cbn [fst] in F. apply String.eqb_eq in F. exists (r, g, b). split; [rewrite F; exact I|]. split; reflexivity. }
  destruct K as [(t & -> & K)|[[-> K]|(n & I & -> & ->)]].
  - unfold hex_color in K. destruct (hex_values t) as [l|] eqn:E; [|discriminate K]. destruct (hex_values_length t l E) as [L F]. cbn [String.length]. rewrite L.
    destruct l as [|d1 [|d2 [|d3 [|d4 [|d5 [|d6 [|d7 [|d8 [|]]]]]]]]]; try discriminate K; cbn [List.length]; injection K as <- <- <- <-.
    + pose proof (Forall_inv F) as F1. pose proof (Forall_inv (Forall_inv_tail F)) as F2. pose proof (Forall_inv (Forall_inv_tail (Forall_inv_tail F))) as F3.
      apply (proj2 (opaque_bound minify _ _ _ R G B)); [exact (proj2 (paired_17 _ d1 F1 eq_refl))|exact (proj2 (paired_17 _ d2 F2 eq_refl))|exact (proj2 (paired_17 _ d3 F3 eq_refl))].
    + pose proof (Forall_inv F) as F1. pose proof (Forall_inv (Forall_inv_tail F)) as F2. pose proof (Forall_inv (Forall_inv_tail (Forall_inv_tail F))) as F3.
      pose proof (Forall_inv (Forall_inv_tail (Forall_inv_tail (Forall_inv_tail F)))) as F4.
      apply L5; [exact (proj2 (paired_17 _ d1 F1 eq_refl))|exact (proj2 (paired_17 _ d2 F2 eq_refl))|exact (proj2 (paired_17 _ d3 F3 eq_refl))|exact (proj2 (paired_17 _ d4 F4 eq_refl))].
    + apply (proj1 (opaque_bound minify _ _ _ R G B)).
    + exact L9.
  - injection K as -> -> -> ->. destruct minify; vm_compute; repeat constructor.
  - assert (AL : forallb name_bound css_names = true) by (vm_compute; reflexivity).
    pose proof (proj1 (forallb_forall _ _) AL _ I) as Q. unfold name_bound in Q. cbn [fst snd] in Q. apply PeanoNat.Nat.leb_le.
    apply (proj1 (forallb_forall _ _) Q minify). destruct minify; [left|right; left]; reflexivity.
Qed.
