(** Numbers that are printed are read with the same value. *)
From Coq Require Import List Bool String Ascii PeanoNat NArith ZArith QArith Lia.
From Verif Require Import IdentModel IdentSpec IdentProofs NumTextModel NumTextSpec TokSpec TokModel TokListSpec.
Import ListNotations.
Local Open Scope bool_scope.
Local Open Scope string_scope.
Local Open Scope nat_scope.

Ltac chars c := destruct c as [[] [] [] [] [] [] [] []].

Definition no_digit (r : string) : bool := match r with String c _ => negb (digit_char c) | "" => true end.

Lemma digit_some : forall c, digit_char c = true -> digit c = Some (Z.of_nat (code c - 48)).
Proof. intros c H. unfold digit_char, in_range, code in H. unfold digit, code. rewrite H. reflexivity. Qed.
Lemma digit_none : forall c, digit_char c = false -> digit c = None.
Proof. intros c H. unfold digit_char, in_range, code in H. unfold digit. rewrite H. reflexivity. Qed.

Lemma read_digits_app : forall s acc k t, all_digits s = true -> no_digit t = true ->
  read_digits acc k (s ++ t) = (digits_value acc s, k + String.length s, t).
Proof.
  induction s as [|c s IH]; intros acc k t H E.
  - cbn [append digits_value String.length]. rewrite Nat.add_0_r. destruct t as [|d t]; [reflexivity|].
    cbn [no_digit] in E. apply negb_true_iff in E. cbn [read_digits]. rewrite digit_none by exact E. reflexivity.
  - cbn [all_digits] in H. apply andb_true_iff in H. destruct H as [H1 H2].
    cbn [append read_digits digits_value String.length]. rewrite digit_some by exact H1.
    rewrite IH by assumption. rewrite (Nat.add_succ_r k). reflexivity.
Qed.

Definition exp_value (ex : option (bool * string)) : Z :=
  match ex with
  | None => 0%Z
  | Some (n, t) => let z := digits_value 0 t in if n then Z.opp z else z
  end.
Definition exp_ok (ex : option (bool * string)) : bool :=
  match ex with None => true | Some (_, t) => nonempty t && all_digits t end.
Definition exp_text (ex : option (bool * string)) : string :=
  match ex with None => "" | Some (n, t) => "e" ++ (if n then "-" else "") ++ t end.

(** Text after which a number ends. *)
Definition dot_digit (r : string) : bool :=
  match r with
  | String c (String d _) => is 46 c && digit_char d
  | _ => false
  end.
Definition num_ends (r : string) : Prop :=
  no_digit r = true /\ dot_digit r = false /\ read_exponent r = (0%Z, r).

Lemma read_sign_digit : forall t r, nonempty t = true -> all_digits t = true ->
  read_sign (t ++ r) = (false, t ++ r).
Proof.
  intros [|c t] r H1 H2; [discriminate|]. cbn [all_digits] in H2. apply andb_true_iff in H2. destruct H2 as [H2 _].
  cbn [append]. revert H2. chars c; vm_compute (digit_char _); intros H; try discriminate; reflexivity.
Qed.

Lemma read_exp : forall ex r, exp_ok ex = true -> num_ends r ->
  read_exponent (exp_text ex ++ r) = (exp_value ex, r).
Proof.
  intros [[n t]|] r H E.
  - cbn [exp_ok] in H. apply andb_true_iff in H. destruct H as [H1 H2].
    cbn [exp_text exp_value append read_exponent]. change (Ascii.eqb "e" "e" || Ascii.eqb "e" "E")%bool with true.
    cbv iota.
    assert (S : read_sign (((if n then "-" else "") ++ t) ++ r) = (n, t ++ r)).
    { destruct n; [reflexivity|]. cbn [append]. apply read_sign_digit; assumption. }
    rewrite S. rewrite read_digits_app by (assumption || apply E).
    destruct t; [discriminate|]. cbn [String.length Nat.add]. reflexivity.
  - cbn [exp_text append exp_value]. apply E.
Qed.

(** A sign, digits, digits after a point, an exponent. *)
Definition shape (sg I F : string) (ex : option (bool * string)) : string :=
  sg ++ I ++ (if nonempty F then "." ++ F else "") ++ exp_text ex.
Definition sign_ok (sg : string) : bool := String.eqb sg "" || String.eqb sg "-" || String.eqb sg "+".
Definition shape_value (sg I F : string) (ex : option (bool * string)) : Q :=
  let v := (inject_Z (digits_value 0 (I ++ F)) * pow10 (- Z.of_nat (String.length F)) * pow10 (exp_value ex))%Q in
  if String.eqb sg "-" then (- v)%Q else v.

Lemma digits_value_app : forall a acc b, digits_value acc (a ++ b) = digits_value (digits_value acc a) b.
Proof. induction a as [|c a IH]; intros; [reflexivity|]. cbn [append digits_value]. apply IH. Qed.

Lemma exp_no_digit : forall ex r, num_ends r -> no_digit (exp_text ex ++ r) = true.
Proof. intros [[n t]|] r H; [reflexivity|]. apply H. Qed.
Lemma exp_no_dot : forall ex r, num_ends r -> dot_digit (exp_text ex ++ r) = false.
Proof. intros [[n t]|] r H; [|apply H].
  change (dot_digit (String "e" (((if n then "-" else "") ++ t) ++ r)) = false).
  cbn [dot_digit]. change (is 46 "e") with false. destruct (((if n then "-" else "") ++ t) ++ r); reflexivity. Qed.

Lemma no_dot_frac : forall (i : Z) r, dot_digit r = false ->
  match r with
  | String "." r2 =>
      let '(f, kf, r3) := read_digits i 0 r2 in
      match kf with 0%nat => None | S _ => Some (f, kf, r3) end
  | _ => None
  end = None.
Proof.
  intros i [|c r] H; [reflexivity|]. destruct (Ascii.eqb c ".") eqn:E.
  - apply Ascii.eqb_eq in E. subst c. destruct r as [|d r]; [reflexivity|].
    cbn [dot_digit] in H. change (is 46 ".") with true in H. cbn [andb] in H.
    cbn [read_digits]. rewrite digit_none by exact H. reflexivity.
  - clear H. revert E. chars c; vm_compute (Ascii.eqb _ _); intros E; try discriminate E; reflexivity.
Qed.

Lemma read_unsigned_shape : forall I F ex r,
  all_digits I = true -> all_digits F = true -> (nonempty I || nonempty F) = true ->
  exp_ok ex = true -> num_ends r ->
  read_unsigned (I ++ (if nonempty F then "." ++ F else "") ++ exp_text ex ++ r)
  = Some ((mantissa (digits_value 0 (I ++ F)) (String.length F) * pow10 (exp_value ex))%Q, r).
Proof.
  intros I F ex r HI HF NE HE HR. unfold read_unsigned.
  destruct F as [|f F].
  - cbn [nonempty append]. rewrite read_digits_app by (assumption || (apply exp_no_digit; assumption)).
    rewrite no_dot_frac by (apply exp_no_dot; assumption).
    cbn [nonempty] in NE. rewrite orb_false_r in NE. destruct I as [|i I]; [discriminate|].
    cbn [String.length Nat.add]. rewrite read_exp by assumption.
    rewrite digits_value_app. reflexivity.
  - cbn [nonempty].
    rewrite read_digits_app by (assumption || reflexivity).
    change ("." ++ String f F) with (String "." (String f F)). cbn [append].
    change (String f (F ++ exp_text ex ++ r)) with (String f F ++ exp_text ex ++ r).
    rewrite read_digits_app by (assumption || (apply exp_no_digit; assumption)).
    cbn [Nat.add]. cbn [String.length]. rewrite read_exp by assumption.
    rewrite digits_value_app. reflexivity.
Qed.

Lemma read_sign_sign : forall sg t, sign_ok sg = true ->
  (forall c r, t = String c r -> is_dash c = false /\ is 43 c = false) ->
  read_sign (sg ++ t) = (String.eqb sg "-", t).
Proof.
  intros sg t H N. unfold sign_ok in H.
  destruct (String.eqb sg "") eqn:E1; [apply String.eqb_eq in E1; subst|].
  - cbn [append]. destruct t as [|c t]; [reflexivity|]. destruct (N _ _ eq_refl) as [N1 N2].
    revert N1 N2. chars c; vm_compute (is_dash _); vm_compute (is _ _); intros; try discriminate; reflexivity.
  - destruct (String.eqb sg "-") eqn:E2; [apply String.eqb_eq in E2; subst; reflexivity|].
    cbn in H. apply String.eqb_eq in H. subst. reflexivity.
Qed.

Lemma digit_not_sign : forall c, digit_char c = true -> is_dash c = false /\ is 43 c = false.
Proof. intros c. chars c; vm_compute (digit_char _); intros H; try discriminate; split; reflexivity. Qed.

Lemma shape_start : forall I F ex r, all_digits I = true -> (nonempty I || nonempty F) = true ->
  forall c t, I ++ (if nonempty F then "." ++ F else "") ++ exp_text ex ++ r = String c t ->
  is_dash c = false /\ is 43 c = false.
Proof.
  intros [|i I] F ex r H NE c t E.
  - cbn [nonempty orb] in NE. rewrite NE in E. cbn in E. injection E as E _. subst c. split; reflexivity.
  - cbn [append] in E. injection E as E _. subst i. cbn [all_digits] in H. apply andb_true_iff in H.
    apply digit_not_sign. apply H.
Qed.

Theorem read_shape : forall sg I F ex r, sign_ok sg = true ->
  all_digits I = true -> all_digits F = true -> (nonempty I || nonempty F) = true ->
  exp_ok ex = true -> num_ends r ->
  read_number (shape sg I F ex ++ r) = Some (shape_value sg I F ex, r).
Proof.
  intros sg I F ex r HS HI HF NE HE HR. unfold read_number, shape.
  rewrite !app_assoc_s. rewrite read_sign_sign by (assumption || (intros c0 t0 E0; exact (shape_start I F ex r HI NE c0 t0 E0))).
  rewrite read_unsigned_shape by assumption. unfold shape_value, mantissa. destruct (String.eqb sg "-"); reflexivity.
Qed.

(** ** The texts that are printed *)

Definition num_text (s : string) (n : num) : Prop :=
  exists sg I F ex, s = shape sg I F ex /\ sign_ok sg = true /\ all_digits I = true /\ all_digits F = true
    /\ (nonempty I || nonempty F) = true /\ exp_ok ex = true
    /\ (shape_value sg I F ex == dec_value (n_dec n))%Q.

Lemma dec_text_shape : forall d,
  dec_text d = shape (if d_neg d then "-" else "") (d_int d) (d_frac d) (d_exp d).
Proof. intros. unfold dec_text, shape, exp_text. reflexivity. Qed.

Lemma sign_value : forall (b : bool) (d : dec), d_neg d = b ->
  shape_value (if b then "-" else "") (d_int d) (d_frac d) (d_exp d) = dec_value d.
Proof. intros b d H. unfold shape_value, dec_value, pow10, exp_value. rewrite H. destruct b; reflexivity. Qed.

Lemma zero_frac : forall sg I ex,
  (shape_value sg I "0" ex == shape_value sg I "" ex)%Q.
Proof.
  intros. unfold shape_value, pow10. rewrite !digits_value_app. cbn [digits_value String.length].
  change (Z.of_nat (code "0" - 48)) with 0%Z. rewrite Z.add_0_r.
  set (z := digits_value 0 I). set (p := Qpower 10 (exp_value ex)).
  assert (E : (inject_Z (z * 10) * Qpower 10 (- Z.of_nat 1) == inject_Z z * Qpower 10 (- Z.of_nat 0))%Q).
  { rewrite inject_Z_mult. change (Qpower 10 (- Z.of_nat 1)) with (1 # 10)%Q. change (Qpower 10 (- Z.of_nat 0)) with 1%Q.
    rewrite <- Qmult_assoc. change (inject_Z 10 * (1 # 10))%Q with (10 # 10)%Q.
    setoid_replace (10 # 10)%Q with 1%Q by reflexivity. reflexivity. }
  destruct (String.eqb sg "-"); rewrite E; reflexivity.
Qed.

Lemma plus_value : forall I F ex, shape_value "+" I F ex = shape_value "" I F ex.
Proof. reflexivity. Qed.

Ltac parts H := unfold num_ok, dec_ok in H; repeat (apply andb_true_iff in H; let H' := fresh H in destruct H as [H H']).

Lemma dec_parts : forall d, dec_ok d = true ->
  nonempty (d_int d) = true /\ all_digits (d_int d) = true /\ all_digits (d_frac d) = true /\ exp_ok (d_exp d) = true.
Proof.
  intros d H. unfold dec_ok in H. apply andb_true_iff in H. destruct H as [H H4].
  apply andb_true_iff in H. destruct H as [H H3]. apply andb_true_iff in H. destruct H as [H1 H2].
  repeat split; try assumption.
Qed.

Lemma app_empty_r : forall s, s ++ "" = s.
Proof. apply app_nil_r_s. Qed.

Lemma numeric_text : forall n, dec_ok (n_dec n) = true -> num_text (write_numeric n) n.
Proof.
  intros n H. destruct (dec_parts _ H) as (H1 & H2 & H3 & H4).
  unfold num_text, write_numeric. rewrite dec_text_shape.
  set (sg := if d_neg (n_dec n) then "-" else "").
  assert (SV : shape_value sg (d_int (n_dec n)) (d_frac (n_dec n)) (d_exp (n_dec n)) = dec_value (n_dec n))
    by (apply sign_value; reflexivity).
  assert (P : exists sg', (if n_sign n && negb (d_neg (n_dec n)) then "+" else "") ++
       shape sg (d_int (n_dec n)) (d_frac (n_dec n)) (d_exp (n_dec n)) =
       shape sg' (d_int (n_dec n)) (d_frac (n_dec n)) (d_exp (n_dec n)) /\ sign_ok sg' = true
       /\ forall F ex, shape_value sg' (d_int (n_dec n)) F ex = shape_value sg (d_int (n_dec n)) F ex).
  { unfold sg. destruct (n_sign n), (d_neg (n_dec n)); cbn [andb negb].
    - exists "-". repeat split.
    - exists "+". repeat split.
    - exists "-". repeat split.
    - exists "". repeat split. }
  destruct P as (sg' & P1 & P2 & P3).
  destruct (negb (n_int n) && n_whole n && negb (has_point (n_dec n)) && negb (scientific (n_dec n))) eqn:Z.
  - apply andb_true_iff in Z. destruct Z as [Z Z2]. apply andb_true_iff in Z. destruct Z as [_ Z1].
    unfold has_point in Z1. unfold scientific in Z2.
    exists sg', (d_int (n_dec n)), "0", None. rewrite <- app_assoc_s, P1.
    destruct (d_frac (n_dec n)) eqn:F; [|discriminate]. destruct (d_exp (n_dec n)) eqn:X; [discriminate|].
    split; [|repeat split; try assumption].
    + unfold shape. cbn [nonempty append exp_text]. rewrite !app_assoc_s. cbn [append]. reflexivity.
    + apply orb_true_iff. left. exact H1.
    + rewrite zero_frac. rewrite P3. rewrite SV. reflexivity.
  - exists sg', (d_int (n_dec n)), (d_frac (n_dec n)), (d_exp (n_dec n)). rewrite app_empty_r, P1.
    split; [reflexivity|]. repeat split; try assumption.
    + apply orb_true_iff. left. exact H1.
    + rewrite P3, SV. reflexivity.
Qed.

Lemma plain_numeric : forall n,
  write_numeric (plain n) =
  shape (if d_neg (n_dec n) then "-" else "") (d_int (n_dec n)) (d_frac (n_dec n)) (d_exp (n_dec n)).
Proof.
  intros. unfold write_numeric, plain. cbn [n_dec n_sign n_int n_whole andb].
  rewrite dec_text_shape. cbn [append].
  destruct (n_whole n); cbn [negb andb]; apply app_empty_r.
Qed.

Lemma zero_int : forall sg F ex, shape_value sg "0" F ex = shape_value sg "" F ex.
Proof. intros. unfold shape_value. cbn [append digits_value]. reflexivity. Qed.

Lemma trim_keeps : forall c r, is 48 c = false -> trim_char zero_char (String c r) = String c r.
Proof.
  intros c r. cbn [trim_char]. chars c; vm_compute (is _ _); intros H; try discriminate H; reflexivity.
Qed.

Lemma trim_dot : forall x, trim_dash_zero (String "." x) = String "." x.
Proof. intros [|a x]; reflexivity. Qed.

(** The text of a number below one: without the zero, or as it is. *)
Lemma small_text : forall n t, num_ok n = true -> n_small n = true ->
  exists sg I F ex, dimension_text (d_neg (n_dec n)) (write_numeric (plain n) ++ t) = shape sg I F ex ++ t
    /\ number_text (d_neg (n_dec n)) (write_numeric (plain n) ++ t) = shape sg I F ex ++ t
    /\ sign_ok sg = true /\ all_digits I = true /\ all_digits F = true
    /\ (nonempty I || nonempty F) = true /\ exp_ok ex = true
    /\ (shape_value sg I F ex == dec_value (n_dec n))%Q.
Proof.
  intros n t H S. unfold num_ok in H. apply andb_true_iff in H. destruct H as [H C]. rewrite S in C. cbn [negb orb] in C.
  destruct (dec_parts _ H) as (H1 & H2 & H3 & H4). rewrite plain_numeric.
  set (d := n_dec n) in *.
  apply orb_true_iff in C. destruct C as [C|C].
  - apply andb_true_iff in C. destruct C as [C1 C2]. apply String.eqb_eq in C1.
    exists (if d_neg d then "-" else ""), "", (d_frac d), (d_exp d).
    assert (T : forall X, nonempty (d_frac d) = true ->
      trim_char zero_char (("0" ++ (if nonempty (d_frac d) then "." ++ d_frac d else "") ++ exp_text (d_exp d)) ++ X)
      = (("" ++ (if nonempty (d_frac d) then "." ++ d_frac d else "") ++ exp_text (d_exp d)) ++ X)).
    { intros X N. rewrite N. reflexivity. }
    rewrite C1. unfold shape.
    split; [|split; [|repeat split; try assumption; try reflexivity]].
    + destruct (d_neg d).
      * unfold dimension_text. rewrite C2. cbn [append].
        change (String dash_char (trim_dash_zero (String "." ((d_frac d ++ exp_text (d_exp d)) ++ t)))
                = String "-" (String "." ((d_frac d ++ exp_text (d_exp d)) ++ t))).
        rewrite trim_dot. reflexivity.
      * unfold dimension_text. rewrite T by exact C2. reflexivity.
    + destruct (d_neg d).
      * unfold number_text. rewrite C2. reflexivity.
      * unfold number_text. rewrite T by exact C2. reflexivity.
    + destruct (d_neg d); reflexivity.
    + rewrite <- zero_int, <- C1. rewrite sign_value by reflexivity. reflexivity.
  - apply andb_true_iff in C. destruct C as [C1 C2]. apply negb_true_iff in C1.
    exists "", (d_int d), (d_frac d), (d_exp d). rewrite C1.
    assert (T : trim_char zero_char (shape "" (d_int d) (d_frac d) (d_exp d) ++ t)
                = shape "" (d_int d) (d_frac d) (d_exp d) ++ t).
    { unfold shape. destruct (d_int d) as [|c I]; [discriminate|]. cbn [append]. apply trim_keeps.
      now apply negb_true_iff. }
    split; [exact T|]. split; [exact T|]. repeat split; try assumption.
    + apply orb_true_iff. left. exact H1.
    + rewrite <- (sign_value (d_neg d) d eq_refl). rewrite C1. reflexivity.
Qed.

Theorem short_number_text : forall n, num_ok n = true -> num_text (short_number n) n.
Proof.
  intros n H. unfold short_number. destruct (n_small n) eqn:S.
  - destruct (small_text n "" H S) as (sg & I & F & ex & _ & E & R). rewrite !app_empty_r in E.
    exists sg, I, F, ex. rewrite E. split; [reflexivity|exact R].
  - unfold num_ok in H. apply andb_true_iff in H. destruct H as [H _].
    destruct (numeric_text (plain n) H) as (sg & I & F & ex & R). exists sg, I, F, ex. exact R.
Qed.

Theorem short_dimension_text : forall n u, num_ok n = true ->
  exists s, short_dimension n u = s ++ unit_text u /\ num_text s n.
Proof.
  intros n u H. unfold short_dimension, raw_dimension. destruct (n_small n) eqn:S.
  - destruct (small_text n (unit_text u) H S) as (sg & I & F & ex & E & _ & R).
    exists (shape sg I F ex). split; [exact E|]. exists sg, I, F, ex. split; [reflexivity|exact R].
  - unfold num_ok in H. apply andb_true_iff in H. destruct H as [H _].
    exists (write_numeric (plain n)). split; [reflexivity|].
    destruct (numeric_text (plain n) H) as (sg & I & F & ex & R). exists sg, I, F, ex. exact R.
Qed.

Theorem short_percent_text : forall n, num_ok n = true ->
  exists s, short_percent n = s ++ "%" /\ num_text s n.
Proof.
  intros n H. unfold short_percent, raw_percent. destruct (n_small n) eqn:S.
  - destruct (small_text n "%" H S) as (sg & I & F & ex & E & _ & R).
    exists (shape sg I F ex). split; [exact E|]. exists sg, I, F, ex. split; [reflexivity|exact R].
  - unfold num_ok in H. apply andb_true_iff in H. destruct H as [H _].
    exists (write_numeric (plain n)). split; [reflexivity|].
    destruct (numeric_text (plain n) H) as (sg & I & F & ex & R). exists sg, I, F, ex. exact R.
Qed.

Lemma num_dec : forall n, num_ok n = true -> dec_ok (n_dec n) = true.
Proof. intros n H. unfold num_ok in H. apply andb_true_iff in H. apply H. Qed.

Theorem read_num_text : forall s n r, num_text s n -> num_ends r ->
  exists q, read_number (s ++ r) = Some (q, r) /\ Qred q = number_of n.
Proof.
  intros s n r (sg & I & F & ex & E & H1 & H2 & H3 & H4 & H5 & V) R. subst s.
  exists (shape_value sg I F ex). split; [apply read_shape; assumption|].
  unfold number_of. apply Qred_complete. exact V.
Qed.
