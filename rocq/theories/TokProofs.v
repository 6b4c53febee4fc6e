(** Each token that is printed is read as itself, if what follows cannot be taken
    for a part of it. *)
From Coq Require Import List Bool String Ascii PeanoNat NArith ZArith QArith Lia.
From Verif Require Import IdentModel IdentSpec IdentProofs NumTextModel NumTextSpec TokSpec TokModel TokListSpec TokNumProofs.
Import ListNotations.
Local Open Scope bool_scope.
Local Open Scope string_scope.
Local Open Scope nat_scope.

(** ** Which reader is used *)

Lemma no_sign_number : forall c r, digit_char c = false -> is 43 c = false -> is_dash c = false -> is 46 c = false ->
  read_number (String c r) = None.
Proof.
  intros c r. chars c; vm_compute (digit_char _); vm_compute (is _ _); vm_compute (is_dash _);
    intros; try discriminate; reflexivity.
Qed.

Lemma dash_number : forall c r, digit_char c = false -> is 46 c = false ->
  read_number (String "-" (String c r)) = None.
Proof.
  intros c r. chars c; vm_compute (digit_char _); vm_compute (is _ _);
    intros; try discriminate; reflexivity.
Qed.

Definition opens_cdc (s : string) : bool :=
  match s with String c (String d (String e _)) => is_dash c && is_dash d && is 62 e | _ => false end.

Lemma next_ident : forall s, starts_ident s = true -> opens_cdc s = false -> next s = ident_like s.
Proof.
  intros [|c r]; [discriminate|]. intros H C.
  destruct (is_dash c) eqn:D.
  - assert (c = "-"%char) as ->.
    { revert D. clear. chars c; vm_compute (is_dash _); intros; try discriminate; reflexivity. }
    cbn [starts_ident] in H. change (is_dash "-") with true in H. cbv iota in H.
    destruct r as [|d r]; [discriminate|].
    assert (N : digit_char d = false /\ is 46 d = false).
    { revert H. clear. chars d; vm_compute (digit_char _); vm_compute (name_start _); vm_compute (is_dash _);
        vm_compute (is_backslash _); vm_compute (is _ _); cbn [orb andb]; intros; try discriminate; split; reflexivity. }
    destruct N as [N1 N2].
    assert (S : starts_number (String "-" (String d r)) = false).
    { unfold starts_number. rewrite dash_number by assumption. reflexivity. }
    unfold next. cbn [is code]. change (is 47 "-") with false. cbn [andb]. change (blank "-") with false.
    change (is 34 "-" || is 39 "-")%bool with false. change (is 35 "-") with false. change (is 40 "-") with false.
    change (is 41 "-") with false. change (is 91 "-") with false. change (is 93 "-") with false.
    change (is 123 "-") with false. change (is 125 "-") with false. change (is 44 "-") with false.
    change (is 58 "-") with false. change (is 59 "-") with false. change (is 43 "-" || is 46 "-")%bool with false.
    change (is_dash "-") with true. cbv iota. rewrite S.
    assert (SI : starts_ident (String "-" (String d r)) = true).
    { cbn [starts_ident]. change (is_dash "-") with true. exact H. }
    destruct r as [|e r]; [rewrite SI; reflexivity|].
    cbn [opens_cdc] in C. change (is_dash "-") with true in C. cbn [andb] in C. rewrite C.
    rewrite SI. reflexivity.
  - cbn [starts_ident] in H. rewrite D in H. clear C.
    revert D H. chars c; vm_compute (is_dash _); vm_compute (name_start _); vm_compute (is_backslash _);
      cbn [orb andb]; intros D H; try discriminate.
    all: try reflexivity.
    unfold next. cbn. rewrite H. reflexivity.
Qed.

Lemma next_number : forall s, starts_number s = true -> next s = numeric s.
Proof.
  intros [|c r]; [discriminate|]. intros H.
  destruct (digit_char c) eqn:D.
  - clear H. revert D. chars c; vm_compute (digit_char _); intros D; try discriminate; reflexivity.
  - destruct (is 43 c) eqn:E1; [|destruct (is_dash c) eqn:E2; [|destruct (is 46 c) eqn:E3]].
    + revert E1 H. clear. chars c; vm_compute (is _ _); intros E; try discriminate. intros H.
      unfold next. cbn -[starts_number numeric]. rewrite H. reflexivity.
    + revert E2 H. clear. chars c; vm_compute (is_dash _); intros E; try discriminate. intros H.
      unfold next. cbn -[starts_number numeric]. rewrite H. reflexivity.
    + revert E3 H. clear. chars c; vm_compute (is _ _); intros E; try discriminate. intros H.
      unfold next. cbn -[starts_number numeric]. rewrite H. reflexivity.
    + unfold starts_number in H. rewrite no_sign_number in H by assumption. discriminate.
Qed.

(** ** Names *)

Lemma name_ok_parts : forall n, name_ok n = true -> n <> "" /\ no_nul n = true.
Proof. intros n H. apply andb_true_iff in H. destruct H as [H1 H2]. split; [|exact H2]. intros ->. discriminate. Qed.

Lemma read_ident_text : forall n r, no_nul n = true -> ends_name r = true ->
  read_name RNext (ser_ident n ++ r) = (n, r).
Proof.
  intros n r H E. rewrite read_ser_ident by exact H. rewrite read_end by exact E.
  unfold cons_name. cbn [fst snd]. rewrite app_empty_r. reflexivity.
Qed.

Lemma read_name_text : forall n r, no_nul n = true -> ends_name r = true ->
  read_name RNext (ser_name n ++ r) = (n, r).
Proof.
  intros n r H E. rewrite read_ser_name by exact H. rewrite read_end by exact E.
  unfold cons_name. cbn [fst snd]. rewrite app_empty_r. reflexivity.
Qed.

Lemma byte_cdc : forall d s r, negb (Nat.eqb (code d) 0) = true -> Ascii.eqb d dash = false ->
  opens_cdc (String dash ((escape_byte d ++ s) ++ r)) = false.
Proof.
  intros d s r. chars d; vm_compute (negb _); vm_compute (Ascii.eqb _ _); intros H1 H2; try discriminate;
    vm_compute (escape_byte _); cbn [append opens_cdc]; try reflexivity; destruct (s ++ r) as [|x y]; reflexivity.
Qed.
Lemma hex_cdc : forall d s r, is_digit d = true -> opens_cdc (String dash ((hex_escape d ++ s) ++ r)) = false.
Proof.
  intros d s r. chars d; vm_compute (is_digit _); intros H; try discriminate; reflexivity.
Qed.
Lemma byte_cdc1 : forall d s, negb (Nat.eqb (code d) 0) = true -> Ascii.eqb d dash = false ->
  opens_cdc (escape_byte d ++ s) = false.
Proof.
  intros d s. chars d; vm_compute (negb _); vm_compute (Ascii.eqb _ _); intros H1 H2; try discriminate;
    vm_compute (escape_byte _); cbn [append opens_cdc]; try reflexivity; destruct s as [|x [|y s]]; reflexivity.
Qed.
Lemma hex_cdc1 : forall d s, is_digit d = true -> opens_cdc (hex_escape d ++ s) = false.
Proof.
  intros d s. chars d; vm_compute (is_digit _); intros H; try discriminate; reflexivity.
Qed.
Lemma byte_gt : forall d s, negb (Nat.eqb (code d) 0) = true ->
  opens_cdc (String dash (String dash (escape_byte d ++ s))) = false.
Proof.
  intros d s. chars d; vm_compute (negb _); intros H; try discriminate; reflexivity.
Qed.

Definition starts_gt (r : string) : bool := match r with String c _ => is 62 c | "" => false end.

Lemma ident_no_cdc : forall n r, no_nul n = true -> (String.eqb n "--" && starts_gt r) = false ->
  n <> "" -> opens_cdc (ser_ident n ++ r) = false.
Proof.
  intros [|c [|d s]] r H G NE; [congruence| |].
  - unfold ser_ident. destruct (Ascii.eqb c dash) eqn:E; [destruct r; reflexivity|].
    cbn [ser_start ser_name no_nul] in *. apply andb_true_iff in H. destruct H as [H _].
    destruct (is_digit c) eqn:D; rewrite app_assoc_s; [apply hex_cdc1; exact D|apply byte_cdc1; assumption].
  - unfold ser_ident. cbn [no_nul] in H. apply andb_true_iff in H. destruct H as [H1 H].
    apply andb_true_iff in H. destruct H as [H2 H3].
    destruct (Ascii.eqb c dash) eqn:E.
    + destruct (Ascii.eqb d dash) eqn:E2.
      * apply Ascii.eqb_eq in E, E2. subst c d. destruct s as [|e s].
        -- cbn [ser_name append]. change (String.eqb (String dash (String dash "")) "--") with true in G. cbn [andb] in G.
           destruct r as [|x r]; [reflexivity|]. cbn [opens_cdc starts_gt] in *. rewrite G. apply andb_false_r.
        -- cbn [ser_name no_nul append] in *. apply andb_true_iff in H3. destruct H3 as [H3 _].
           rewrite app_assoc_s. apply byte_gt. exact H3.
      * cbn [append ser_start]. destruct (is_digit d) eqn:D.
        -- apply hex_cdc. exact D.
        -- cbn [ser_name]. apply byte_cdc; assumption.
    + unfold ser_start. destruct (is_digit c) eqn:D.
      * rewrite app_assoc_s. apply hex_cdc1. exact D.
      * cbn [ser_name]. rewrite app_assoc_s. apply byte_cdc1; assumption.
Qed.

Definition starts_paren (r : string) : bool := match r with String c _ => is 40 c | "" => false end.

Lemma ident_like_ident : forall n r, no_nul n = true -> ends_name r = true -> starts_paren r = false ->
  ident_like (ser_ident n ++ r) = ([KIdent n], r).
Proof.
  intros n r H E P. unfold ident_like. rewrite read_ident_text by assumption.
  destruct r as [|c r]; [reflexivity|]. cbn [starts_paren] in P. rewrite P. reflexivity.
Qed.

Lemma lex_ident : forall n r, name_ok n = true -> ends_name r = true -> starts_paren r = false ->
  (String.eqb n "--" && starts_gt r) = false ->
  next (ser_ident n ++ r) = ([KIdent n], r).
Proof.
  intros n r H E P G. destruct (name_ok_parts _ H) as [NE NN].
  rewrite next_ident; [apply ident_like_ident; assumption| |].
  - apply ser_ident_starts; assumption.
  - apply ident_no_cdc; assumption.
Qed.

Lemma lex_function : forall n r, name_ok n = true -> (negb (is_url n) || starts_quote r) = true ->
  next ((ser_ident n ++ "(") ++ r) = ([KFunction n], r).
Proof.
  intros n r H F. destruct (name_ok_parts _ H) as [NE NN]. rewrite app_assoc_s.
  rewrite next_ident.
  - unfold ident_like. rewrite read_ident_text by (assumption || reflexivity).
    cbn [append]. change (is 40 "(") with true. cbv iota.
    destruct (is_url n); [|reflexivity]. cbn [negb orb] in F.
    assert (S : skip_blank r = r).
    { revert F. clear. destruct r as [|c r]; [discriminate|]. cbn [starts_quote skip_blank].
      chars c; vm_compute (is _ _); cbn [orb]; intros; try discriminate; reflexivity. }
    rewrite S, F. reflexivity.
  - apply ser_ident_starts; assumption.
  - apply ident_no_cdc; [assumption| |assumption]. apply andb_false_r.
Qed.

Lemma ser_name_opens : forall n r, n <> "" -> no_nul n = true -> opens_name (ser_name n ++ r) = true.
Proof.
  intros [|c n] r NE H; [congruence|]. cbn [ser_name no_nul] in *. apply andb_true_iff in H. destruct H as [H _].
  rewrite app_assoc_s. revert H. chars c; vm_compute (negb _); intros H; try discriminate; reflexivity.
Qed.
Lemma starts_opens : forall s, starts_ident s = true -> opens_name s = true.
Proof.
  intros [|c r]; [discriminate|]. cbn [starts_ident opens_name]. intros H.
  destruct (is_dash c) eqn:D.
  - assert (E : name_char c = true).
    { unfold name_char. unfold is_dash in D. rewrite D. apply orb_true_r. }
    rewrite E. reflexivity.
  - apply orb_true_iff in H. destruct H as [H|H].
    + unfold name_char. rewrite H. reflexivity.
    + rewrite H. apply orb_true_r.
Qed.

Lemma lex_hash_name : forall s n r, opens_name s = true -> read_name RNext s = (n, r) ->
  next (String "#" s) = ([KHash n], r).
Proof.
  intros s n r H R. unfold next. cbn -[opens_name read_name]. rewrite H, R. destruct s; reflexivity.
Qed.
Lemma lex_at_name : forall s n r, starts_ident s = true -> read_name RNext s = (n, r) ->
  next (String "@" s) = ([KAt n], r).
Proof.
  intros s n r H R. unfold next. cbn -[starts_ident read_name]. rewrite H, R. destruct s; reflexivity.
Qed.

(** ** Numbers *)

Definition num_follow (r : string) : bool :=
  no_digit r && negb (dot_digit r) && negb (starts_ident r).

Lemma e_or : forall c, (Ascii.eqb c "e" || Ascii.eqb c "E") = (is 101 c || is 69 c).
Proof. intros c. chars c; reflexivity. Qed.

Lemma follow_ends : forall r, num_follow r = true -> num_ends r.
Proof.
  intros r H. apply andb_true_iff in H. destruct H as [H H3]. apply andb_true_iff in H. destruct H as [H1 H2].
  apply negb_true_iff in H2, H3. split; [exact H1|]. split; [exact H2|].
  destruct r as [|c r]; [reflexivity|].
  assert (E : (is 101 c || is 69 c) = false).
  { destruct (is 101 c || is 69 c) eqn:E; [|reflexivity].
    assert (K : is_dash c = false /\ name_start c = true).
    { revert E. clear. chars c; vm_compute (is 101 _); vm_compute (is 69 _); cbn [orb]; intros; try discriminate;
        split; reflexivity. }
    destruct K as [K1 K2]. cbn [starts_ident] in H3. rewrite K1, K2 in H3. discriminate. }
  cbn [read_exponent]. rewrite e_or, E. reflexivity.
Qed.

Definition starts_percent (r : string) : bool := match r with String c _ => is 37 c | "" => false end.

Lemma lex_num : forall s n r, num_text s n -> num_follow r = true -> starts_percent r = false ->
  next (s ++ r) = ([KNumber (number_of n)], r).
Proof.
  intros s n r T F P. destruct (read_num_text s n r T (follow_ends _ F)) as (q & R & V).
  rewrite next_number by (unfold starts_number; rewrite R; reflexivity).
  unfold numeric. rewrite R. apply andb_true_iff in F. destruct F as [_ F]. apply negb_true_iff in F. rewrite F.
  rewrite V. destruct r as [|c r]; [reflexivity|]. cbn [starts_percent] in P. rewrite P. reflexivity.
Qed.

Lemma lex_percent : forall s n r, num_text s n -> next ((s ++ "%") ++ r) = ([KPercent (number_of n)], r).
Proof.
  intros s n r T. rewrite app_assoc_s.
  assert (E : num_ends ("%" ++ r)). { split; [reflexivity|]. split; [destruct r; reflexivity|reflexivity]. }
  destruct (read_num_text s n _ T E) as (q & R & V).
  rewrite next_number by (unfold starts_number; rewrite R; reflexivity).
  unfold numeric. rewrite R. rewrite V. reflexivity.
Qed.

Definition starts_e (s : string) : bool := match s with String c _ => is 101 c || is 69 c | "" => false end.

Lemma ident_ends : forall s, starts_ident s = true -> starts_e s = false -> num_ends s.
Proof.
  intros [|c s]; [discriminate|]. cbn [starts_ident starts_e]. intros H E.
  destruct (is_dash c) eqn:D.
  - assert (c = "-"%char) as ->.
    { revert D. clear. chars c; vm_compute (is_dash _); intros; try discriminate; reflexivity. }
    split; [reflexivity|]. split; [|reflexivity]. destruct s; reflexivity.
  - split; [|split].
    + revert D H. clear. chars c; vm_compute (is_dash _); vm_compute (name_start _); vm_compute (is_backslash _);
        cbn [orb andb]; intros; try discriminate; reflexivity.
    + revert D H. clear. destruct s as [|d s]; [reflexivity|]. cbn [dot_digit].
      chars c; vm_compute (is_dash _); vm_compute (name_start _); vm_compute (is_backslash _);
        cbn [orb andb]; intros; try discriminate; reflexivity.
    + cbn [read_exponent]. rewrite e_or, E. reflexivity.
Qed.

Lemma first_not_e : forall c u r, negb (Nat.eqb (code c) 0) = true -> (is 101 c || is 69 c) = false ->
  starts_e (ser_ident (String c u) ++ r) = false.
Proof.
  intros c u r H E. destruct (Ascii.eqb c dash) eqn:D.
  - apply Ascii.eqb_eq in D. subst c. destruct u as [|d u]; [reflexivity|]. unfold ser_ident.
    change (Ascii.eqb dash dash) with true. cbv iota. destruct (Ascii.eqb d dash); reflexivity.
  - assert (S : ser_ident (String c u) = if is_digit c then hex_escape c ++ ser_name u else escape_byte c ++ ser_name u).
    { unfold ser_ident. destruct u; rewrite D; reflexivity. }
    rewrite S. clear S. revert H E D.
    chars c; vm_compute (negb _); vm_compute (is _ _); vm_compute (is_digit _); cbn [orb]; intros; try discriminate; reflexivity.
Qed.

Lemma unit_facts : forall u r, unit_ok u = true -> ends_name r = true ->
  num_ends (unit_text u ++ r) /\ starts_ident (unit_text u ++ r) = true /\ read_name RNext (unit_text u ++ r) = (u, r).
Proof.
  intros u r H E. unfold unit_ok in H. apply andb_true_iff in H. destruct H as [H X]. apply negb_true_iff in X.
  destruct (name_ok_parts _ H) as [NE NN]. destruct u as [|c u]; [congruence|].
  unfold unit_text.
  destruct ((Ascii.eqb c "e" || Ascii.eqb c "E") && match u with "" => true | String d _ => Ascii.eqb d dash end) eqn:B.
  - apply andb_true_iff in B. destruct B as [B1 B2].
    assert (Ce : c = "e"%char).
    { revert B1 X B2. clear. destruct u as [|d u].
      - chars c; vm_compute (Ascii.eqb _ _); vm_compute (is _ _); cbn [orb]; intros; try discriminate; reflexivity.
      - intros B1 X B2. apply Ascii.eqb_eq in B2. subst d. revert B1 X.
        chars c; vm_compute (Ascii.eqb _ _); vm_compute (is _ _); vm_compute (is_dash _); vm_compute (digit_char _);
          cbn [orb andb]; intros; try discriminate; reflexivity. }
    subst c. cbn [no_nul] in NN. apply andb_true_iff in NN. destruct NN as [_ NN].
    split; [|split].
    + split; [reflexivity|]. split; [reflexivity|]. reflexivity.
    + reflexivity.
    + rewrite app_assoc_s. cbn [append]. cbn [read_name].
      change (read_name RNext (ser_name u ++ r)) with (read_name RNext (ser_name u ++ r)).
      rewrite read_name_text by assumption. reflexivity.
  - assert (SI : starts_ident (ser_ident (String c u) ++ r) = true) by (apply ser_ident_starts; assumption).
    split; [|split; [exact SI|apply read_ident_text; assumption]].
    assert (C0 : negb (Nat.eqb (code c) 0) = true). { cbn [no_nul] in NN. apply andb_true_iff in NN. apply NN. }
    assert (U0 : no_nul u = true). { cbn [no_nul] in NN. apply andb_true_iff in NN. apply NN. }
    destruct (is 101 c || is 69 c) eqn:EE.
    + (* the letter e *)
      rewrite e_or, EE in B. cbn [andb] in B. destruct u as [|d u]; [discriminate|].
      assert (SE : ser_ident (String c (String d u)) = String c (ser_name (String d u))).
      { revert EE. clear. chars c; vm_compute (is _ _); cbn [orb]; intros; try discriminate; reflexivity. }
      rewrite SE. cbn [append].
      split; [revert EE; clear; chars c; vm_compute (is _ _); cbn [orb]; intros; try discriminate; reflexivity|].
      split; [revert EE; clear; cbn [dot_digit]; destruct (ser_name (String d u) ++ r); [reflexivity|];
              chars c; vm_compute (is _ _); cbn [orb andb]; intros; try discriminate; reflexivity|].
      cbn [read_exponent]. rewrite e_or, EE. cbn [ser_name].
      cbn [no_nul] in U0. apply andb_true_iff in U0. destruct U0 as [D0 U0].
      assert (DD : digit_char d = false).
      { cbn [andb] in X. apply orb_false_iff in X. apply X. }
      rewrite app_assoc_s. revert B DD D0. clear.
      generalize (ser_name u ++ r). intros t.
      chars d; vm_compute (negb _); vm_compute (Ascii.eqb _ _); vm_compute (digit_char _); intros; try discriminate;
        reflexivity.
    + apply ident_ends; [exact SI|]. apply first_not_e; assumption.
Qed.

Lemma lex_dimension : forall s n u r, num_text s n -> unit_ok u = true -> ends_name r = true ->
  next ((s ++ unit_text u) ++ r) = ([KDimension (number_of n) u], r).
Proof.
  intros s n u r T U E. rewrite app_assoc_s. destruct (unit_facts u r U E) as (N & SI & RN).
  destruct (read_num_text s n _ T N) as (q & R & V).
  rewrite next_number by (unfold starts_number; rewrite R; reflexivity).
  unfold numeric. rewrite R, SI, RN, V. reflexivity.
Qed.


(** ** Strings and addresses *)

Lemma read_text_string : forall s t, no_nul s = true ->
  read_text (string_stop (ch 34)) true RNext (string_bytes s ++ t)
  = cons_name s (read_text (string_stop (ch 34)) true RNext t).
Proof.
  induction s as [|c s IH]; intros t H; [symmetry; apply cons_nil|].
  cbn [no_nul string_bytes] in *. apply andb_true_iff in H. destruct H as [H1 H2].
  rewrite app_assoc_s. specialize (IH t H2). revert IH. generalize (string_bytes s ++ t). intros x IH.
  transitivity (cons_name (String c "") (read_text (string_stop (ch 34)) true RNext x)).
  - revert H1. clear. chars c; vm_compute (negb _); intros H; try discriminate; reflexivity.
  - rewrite IH. apply cons_cons.
Qed.

Lemma lex_string : forall s r, no_nul s = true -> next (ser_string s ++ r) = ([KString s], r).
Proof.
  intros s r H. unfold ser_string. rewrite !app_assoc_s.
  change (next (String (ch 34) (string_bytes s ++ String (ch 34) r)) = ([KString s], r)).
  transitivity (read_string (ch 34) (string_bytes s ++ String (ch 34) r)).
  { destruct (string_bytes s ++ String (ch 34) r); reflexivity. }
  unfold read_string. rewrite read_text_string by exact H.
  cbn [read_text]. change (string_stop (ch 34) (ch 34)) with true. cbv iota.
  unfold cons_name. cbn [fst snd]. rewrite app_empty_r. reflexivity.
Qed.

Lemma read_text_url : forall s t, no_nul s = true ->
  read_text url_stop false RNext (url_bytes s ++ t) = cons_name s (read_text url_stop false RNext t).
Proof.
  induction s as [|c s IH]; intros t H; [symmetry; apply cons_nil|].
  cbn [no_nul url_bytes] in *. apply andb_true_iff in H. destruct H as [H1 H2].
  rewrite app_assoc_s. specialize (IH t H2). revert IH. generalize (url_bytes s ++ t). intros x IH.
  transitivity (cons_name (String c "") (read_text url_stop false RNext x)).
  - revert H1. clear. chars c; vm_compute (negb _); intros H; try discriminate; reflexivity.
  - rewrite IH. apply cons_cons.
Qed.

Lemma url_first : forall s r, no_nul s = true ->
  skip_blank (url_bytes s ++ String ")" r) = url_bytes s ++ String ")" r
  /\ starts_quote (url_bytes s ++ String ")" r) = false.
Proof.
  intros [|c s] r H; [split; reflexivity|]. cbn [no_nul url_bytes] in *. apply andb_true_iff in H. destruct H as [H1 _].
  rewrite app_assoc_s. generalize (url_bytes s ++ String ")" r). intros x. revert H1.
  chars c; vm_compute (negb _); intros H; try discriminate; split; reflexivity.
Qed.

Lemma lex_url : forall s r, no_nul s = true -> next (unquoted s ++ r) = ([KUrl s], r).
Proof.
  intros s r H. unfold unquoted. cbn [append]. rewrite app_assoc_s. cbn [append].
  rewrite next_ident by reflexivity.
  set (x := url_bytes s ++ String ")" r).
  transitivity (if starts_quote (skip_blank x) then ([KFunction "url"], x) else read_url x); [reflexivity|].
  destruct (url_first s r H) as [B Q]. fold x in B, Q. rewrite B, Q. unfold read_url. rewrite B.
  unfold x at 1. rewrite read_text_url by exact H. cbn [read_text].
  change (url_stop ")") with true. cbv iota. unfold cons_name. cbn [fst snd]. rewrite app_empty_r. reflexivity.
Qed.

(** ** Space, comments, delimiters *)

Lemma skip_blank_app : forall w r, all_blank w = true -> skip_blank (w ++ r) = skip_blank r.
Proof.
  induction w as [|c w IH]; intros r H; [reflexivity|]. cbn [all_blank append skip_blank] in *.
  apply andb_true_iff in H. destruct H as [H1 H2]. rewrite H1. apply IH. exact H2.
Qed.

Lemma lex_space : forall w r, nonempty w = true -> all_blank w = true ->
  next (w ++ r) = ([KSpace], skip_blank r).
Proof.
  intros [|c w] r N H; [discriminate|]. cbn [all_blank] in H. apply andb_true_iff in H. destruct H as [H1 H2].
  cbn [append]. rewrite <- (skip_blank_app w r H2). generalize (w ++ r). intros x.
  revert H1. clear. chars c; vm_compute (blank _); intros H; try discriminate; destruct x; reflexivity.
Qed.

Lemma skip_comment_end : forall c r, no_end c = true -> skip_comment (c ++ "*/" ++ r) = r.
Proof.
  induction c as [|a c IH]; intros r H; [reflexivity|].
  cbn [no_end] in H. apply andb_true_iff in H. destruct H as [H1 H2].
  change (skip_comment (String a (c ++ "*/" ++ r)) = r).
  destruct c as [|b c].
  - cbn [append]. change (skip_comment (String a (String "*" (String "/" r)))) with
      (if is 42 a && is 47 "*" then String "/" r else skip_comment (String "*" (String "/" r))).
    change (is 47 "*") with false. rewrite andb_false_r. reflexivity.
  - cbn [append]. apply negb_true_iff in H1. specialize (IH r H2). cbn [append] in IH.
    transitivity (skip_comment (String b (c ++ String "*" (String "/" r)))); [|exact IH].
    cbn [skip_comment]. rewrite H1. reflexivity.
Qed.

Lemma lex_comment : forall c r, no_end c = true -> next (("/*" ++ c ++ "*/") ++ r) = ([], r).
Proof.
  intros c r H. rewrite !app_assoc_s. rewrite <- (skip_comment_end c r H) at 2. reflexivity.
Qed.

(** After which text a delimiter stays one. *)
Definition delim_follow (c : ascii) (r : string) : bool :=
  if is 35 c then negb (opens_name r)
  else if is 43 c || is 46 c then negb (starts_number (String c r))
  else if is_dash c then negb (starts_number (String c r)) && negb (opens_cdc (String c r)) && negb (starts_ident (String c r))
  else if is 47 c then match r with String d _ => negb (is 42 d) | "" => true end
  else if is 60 c then match r with String d _ => negb (is 33 d) | "" => true end
  else if is 64 c then negb (starts_ident r)
  else true.

Lemma lex_delim : forall c r, delimiter c = true -> delim_follow c r = true ->
  next (String c r) = ([KDelim c], r).
Proof.
  intros c r D F.
  destruct (is 35 c) eqn:E1.
  { unfold delim_follow in F. rewrite E1 in F. apply negb_true_iff in F.
    revert E1. chars c; vm_compute (is 35 _); intros; try discriminate.
    unfold next. cbn -[opens_name read_name]. rewrite F. destruct r; reflexivity. }
  destruct (is 43 c || is 46 c) eqn:E2.
  { unfold delim_follow in F. rewrite E1, E2 in F. apply negb_true_iff in F.
    revert E2 F. clear. chars c; vm_compute (is 43 _); vm_compute (is 46 _); cbn [orb]; intros E F; try discriminate;
    unfold next; cbn -[starts_number numeric]; rewrite F; destruct r; reflexivity. }
  destruct (is_dash c) eqn:E3.
  { unfold delim_follow in F. rewrite E1, E2, E3 in F. apply andb_true_iff in F. destruct F as [F F3].
    apply andb_true_iff in F. destruct F as [F1 F2]. apply negb_true_iff in F1, F2, F3.
    assert (c = "-"%char) as ->.
    { revert E3. clear. chars c; vm_compute (is_dash _); intros; try discriminate; reflexivity. }
    unfold next. change (is 47 "-") with false. cbn [andb]. change (blank "-") with false.
    change (is 34 "-" || is 39 "-")%bool with false. change (is 35 "-") with false. change (is 40 "-") with false.
    change (is 41 "-") with false. change (is 91 "-") with false. change (is 93 "-") with false.
    change (is 123 "-") with false. change (is 125 "-") with false. change (is 44 "-") with false.
    change (is 58 "-") with false. change (is 59 "-") with false. change (is 43 "-" || is 46 "-")%bool with false.
    change (is_dash "-") with true. cbv iota. rewrite F1, F3.
    destruct r as [|d [|e r]]; try reflexivity.
    cbn [opens_cdc] in F2. change (is_dash "-") with true in F2. cbn [andb] in F2. rewrite F2. reflexivity. }
  destruct (is 47 c) eqn:E4.
  { unfold delim_follow in F. rewrite E1, E2, E3, E4 in F.
    revert E4. chars c; vm_compute (is 47 _); intros; try discriminate.
    destruct r as [|d r]; [reflexivity|]. apply negb_true_iff in F.
    unfold next. cbn -[is]. change (is 47 "/") with true. cbn [andb]. rewrite F. reflexivity. }
  destruct (is 60 c) eqn:E5.
  { unfold delim_follow in F. rewrite E1, E2, E3, E4, E5 in F.
    revert E5. chars c; vm_compute (is 60 _); intros; try discriminate.
    destruct r as [|d [|e [|f r]]]; try reflexivity. apply negb_true_iff in F.
    unfold next. cbn -[is is_dash]. rewrite F. reflexivity. }
  destruct (is 64 c) eqn:E6.
  { unfold delim_follow in F. rewrite E1, E2, E3, E4, E5, E6 in F. apply negb_true_iff in F.
    revert E6. chars c; vm_compute (is 64 _); intros; try discriminate.
    unfold next. cbn -[starts_ident read_name]. rewrite F. destruct r; reflexivity. }
  clear F. revert D E1 E2 E3 E4 E5 E6.
  chars c; vm_compute (delimiter _); intros D; try discriminate D;
    vm_compute (is 35 _); vm_compute (is 43 _); vm_compute (is 46 _); vm_compute (is_dash _);
    vm_compute (is 47 _); vm_compute (is 60 _); vm_compute (is 64 _); cbn [orb]; intros; try discriminate; reflexivity.
Qed.
