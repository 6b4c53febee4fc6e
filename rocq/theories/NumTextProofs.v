From Coq Require Import Ascii String Bool ZArith QArith Qpower Lia.
From Verif Require Import NumTextModel NumTextSpec.
Open Scope string_scope.

Lemma digit_zero : digit zero_char = Some 0%Z.
Proof. reflexivity. Qed.

Lemma digits_count : forall s acc k, let '(a, n, r) := read_digits acc k s in (k <= n)%nat.
Proof.
  induction s as [|c s IH]; intros acc k; cbn [read_digits]; [lia|].
  destruct (digit c); [|lia]. specialize (IH (acc * 10 + z)%Z (S k)).
  destruct (read_digits (acc * 10 + z) (S k) s) as [[a n] r]. lia.
Qed.

(** The count is only an offset *)
Lemma digits_shift : forall s acc k j,
    read_digits acc (k + j) s = let '(a, n, r) := read_digits acc k s in (a, (n + j)%nat, r).
Proof.
  induction s as [|c s IH]; intros acc k j; cbn [read_digits]; [reflexivity|].
  destruct (digit c); [|reflexivity]. change (S (k + j)) with (S k + j)%nat. apply IH.
Qed.

Lemma digits_zero_count : forall s a n r, read_digits 0 0 s = (a, n, r) -> n = 0%nat -> a = 0%Z.
Proof.
  intros [|c s] a n r H E; cbn [read_digits] in H; [inversion H; reflexivity|].
  destruct (digit c) as [d|]; [|inversion H; reflexivity].
  pose proof (digits_count s (0 * 10 + d)%Z 1) as C. rewrite H in C. lia.
Qed.

(** A leading zero does not matter, unless it is the only digit *)
Lemma unsigned_drop : forall s q r, read_unsigned (String zero_char s) = Some (q, r) -> ~ q == 0 ->
    read_unsigned s = Some (q, r).
Proof.
  intros s q r H N. unfold read_unsigned in *.
  change (read_digits 0 0 (String zero_char s)) with (read_digits 0 (0 + 1) s) in H.
  rewrite digits_shift in H. destruct (read_digits 0 0 s) as [[i k] r1] eqn:E.
  match goal with |- context [match ?x with Some _ => _ | None => _ end] => destruct x as [[[f kf] r3]|] end;
    [exact H|].
  destruct k as [|k]; [|exact H].
  pose proof (digits_zero_count _ _ _ _ E eq_refl). subst i. exfalso. cbn [Nat.add] in H.
  destruct (read_exponent r1) as [e r']. injection H; intros; subst. apply N.
  unfold mantissa. change (inject_Z 0) with 0. ring.
Qed.

Lemma unsigned_trim : forall s q r, read_unsigned s = Some (q, r) -> ~ q == 0 ->
    read_unsigned (trim_char zero_char s) = Some (q, r).
Proof.
  induction s as [|c s IH]; intros q r H N; [exact H|]. cbn [trim_char].
  destruct (Ascii.eqb c zero_char) eqn:E; [|exact H]. apply Ascii.eqb_eq in E. subst c.
  apply IH; [|exact N]. apply unsigned_drop; assumption.
Qed.

Lemma trim_dash_head : forall s, (forall r, s <> String dash_char r) -> trim_char dash_char s = s.
Proof.
  intros [|c s] H; [reflexivity|]. cbn [trim_char]. destruct (Ascii.eqb c dash_char) eqn:E; [|reflexivity].
  apply Ascii.eqb_eq in E. subst. exfalso; eapply H; reflexivity.
Qed.

Lemma unsigned_head : forall c s q r, read_unsigned (String c s) = Some (q, r) ->
    c <> "-"%char /\ c <> "+"%char.
Proof. intros c s q r H. split; intros ->; discriminate H. Qed.

Lemma sign_spec : forall s, (exists r, s = String "-" r /\ read_sign s = (true, r))
    \/ (exists r, s = String "+" r /\ read_sign s = (false, r))
    \/ (read_sign s = (false, s) /\ (forall r, s <> String "-" r) /\ (forall r, s <> String "+" r)).
Proof.
  intros [|c s]; [right; right; repeat split; discriminate|].
  destruct (Ascii.ascii_dec c "-") as [->|D1]; [left; eexists; split; reflexivity|].
  destruct (Ascii.ascii_dec c "+") as [->|D2]; [right; left; eexists; split; reflexivity|].
  right; right. split; [|split; intros r E; inversion E; contradiction].
  destruct c as [[] [] [] [] [] [] [] []]; try reflexivity; contradiction.
Qed.

Lemma read_unsigned_plain : forall s q r, read_unsigned s = Some (q, r) ->
    read_number s = Some (q, r).
Proof.
  intros s q r H. unfold read_number.
  destruct (sign_spec s) as [(t & -> & _)|[(t & -> & _)|(-> & _)]]; [discriminate H|discriminate H|].
  rewrite H. reflexivity.
Qed.

Lemma pow10_pos : forall z, 0 < pow10 z.
Proof. intros z. apply Qpower_0_lt. reflexivity. Qed.

Lemma digits_nonneg : forall s acc k, (0 <= acc)%Z -> let '(a, n, r) := read_digits acc k s in (0 <= a)%Z.
Proof.
  induction s as [|c s IH]; intros acc k H; cbn [read_digits]; [exact H|].
  destruct (digit c) as [d|] eqn:D; [|exact H]. apply IH.
  unfold digit in D. destruct (_ && _)%bool; [|discriminate D]. injection D; intros; subst. lia.
Qed.

Lemma unsigned_nonneg : forall s q r, read_unsigned s = Some (q, r) -> 0 <= q.
Proof.
  intros s q r H. unfold read_unsigned in H.
  pose proof (digits_nonneg s 0%Z 0%nat ltac:(lia)) as N.
  destruct (read_digits 0 0 s) as [[i ki] r1].
  assert (F : forall m k r0 q r, (0 <= m)%Z ->
    (let (e, r') := read_exponent r0 in Some (mantissa m k * pow10 e, r')) = Some (q, r) -> 0 <= q).
  { intros m k r0 q0 r' Hm E. destruct (read_exponent r0) as [e r'']. injection E; intros; subst.
    unfold mantissa. apply Qmult_le_0_compat; [|apply Qlt_le_weak, pow10_pos].
    apply Qmult_le_0_compat; [|apply Qlt_le_weak, pow10_pos].
    change 0 with (inject_Z 0). rewrite <- Zle_Qle. exact Hm. }
  destruct (match r1 with String "." _ => _ | _ => _ end) as [[[f kf] r3]|] eqn:E.
  - eapply F; [|exact H].
    destruct r1 as [|c r2]; [discriminate E|].
    destruct c as [[] [] [] [] [] [] [] []]; try discriminate E.
    pose proof (digits_nonneg r2 i 0%nat N) as G. destruct (read_digits i 0 r2) as [[f' k'] t].
    destruct k'; inversion E; subst. exact G.
  - destruct ki; [discriminate H|]. eapply F; [|exact H]. exact N.
Qed.

(** [number_text] keeps the value *)
Lemma number_text_same : forall s q rest neg, read_number s = Some (q, rest) -> ~ q == 0 ->
    (neg = true <-> q < 0) -> read_number (number_text neg s) = Some (q, rest).
Proof.
  intros s q rest neg H N S. unfold read_number in H.
  destruct (sign_spec s) as [(t & -> & E)|[(t & -> & E)|(E & D1 & D2)]]; rewrite E in H;
    (destruct (read_unsigned _) as [[p r']|] eqn:U; [|discriminate H]); injection H; intros; subst;
    pose proof (unsigned_nonneg _ _ _ U) as P.
  - assert (Np : ~ p == 0) by (intros Z; apply N; rewrite Z; reflexivity).
    assert (neg = true) as ->.
    { apply S. destruct (Qlt_le_dec (- p) 0) as [L|L]; [exact L|]. exfalso. apply Np.
      apply Qle_antisym; [|exact P]. setoid_replace p with (- - p) by ring.
      change 0 with (- 0). apply Qopp_le_compat. exact L. }
    cbn [number_text trim_char]. change (Ascii.eqb "-" dash_char) with true. cbv iota.
    rewrite trim_dash_head.
    + change (read_number (String dash_char (trim_char zero_char t)))
        with (match read_unsigned (trim_char zero_char t) with
              | Some (q, r') => Some (- q, r') | None => None end).
      rewrite (unsigned_trim _ _ _ U Np). reflexivity.
    + intros r ->. discriminate U.
  - assert (neg = false) as ->.
    { destruct neg; [|reflexivity]. exfalso. apply (Qlt_not_le q 0); [apply S; reflexivity|exact P]. }
    cbn [number_text trim_char]. change (Ascii.eqb "+" zero_char) with false. cbv iota.
    unfold read_number. rewrite E, U. reflexivity.
  - assert (neg = false) as ->.
    { destruct neg; [|reflexivity]. exfalso. apply (Qlt_not_le q 0); [apply S; reflexivity|exact P]. }
    cbn [number_text]. apply read_unsigned_plain. apply unsigned_trim; assumption.
Qed.

(** [dimension_text] keeps the value when a negative text starts with [-0] *)
Lemma dimension_text_same : forall s q rest neg, read_number s = Some (q, rest) -> ~ q == 0 ->
    (neg = true <-> q < 0) -> (neg = true -> exists t, s = "-0" ++ t) ->
    read_number (dimension_text neg s) = Some (q, rest).
Proof.
  intros s q rest [] H N S Z.
  - destruct (Z eq_refl) as [t ->]. unfold dimension_text.
    change (trim_dash_zero ("-0" ++ t)) with (trim_dash_zero t).
    change (read_number ("-0" ++ t)) with (match read_unsigned (String zero_char t) with
              | Some (q, r') => Some (- q, r') | None => None end) in H.
    assert (trim_dash_zero t = t) as ->.
    { destruct t as [|c t]; [reflexivity|]. destruct t as [|c2 t]; [reflexivity|]. cbn [trim_dash_zero].
      destruct (Ascii.eqb c dash_char) eqn:E; [|reflexivity]. apply Ascii.eqb_eq in E. subst c.
      cbn [andb]. destruct (Ascii.eqb c2 zero_char); [|reflexivity].
      exfalso. apply N. clear -H. unfold read_unsigned in H. cbn in H.
      injection H; intros _ H1. rewrite <- H1. reflexivity. }
    change (read_number (String dash_char t)) with (match read_unsigned t with
              | Some (q, r') => Some (- q, r') | None => None end).
    destruct (read_unsigned (String zero_char t)) as [[p r']|] eqn:U; [|discriminate H].
    injection H; intros; subst.
    assert (Np : ~ p == 0) by (intros E; apply N; rewrite E; reflexivity).
    rewrite (unsigned_drop _ _ _ U Np). reflexivity.
  - apply (number_text_same s q rest false); assumption.
Qed.
