(** Lists of tokens: the printed text is read as the tokens of the list. *)
From Coq Require Import List Bool String Ascii PeanoNat NArith ZArith QArith Lia.
From Verif Require Import IdentModel IdentSpec IdentProofs NumTextModel NumTextSpec TokSpec TokModel TokListSpec TokNumProofs TokProofs.
Import ListNotations.
Local Open Scope bool_scope.
Local Open Scope string_scope.
Local Open Scope nat_scope.

(** The texts a token is printed as. *)
Definition prints (m : bool) (t : token) (s : string) : Prop :=
  s = token_text m t \/ s = short_text m t
  \/ exists u, t = TUrl u /\ s = "url(" ++ ser_string u ++ ")".

Definition live (m : bool) (t : token) : bool := negb (m && match t with TComment _ => true | _ => false end).

Definition follow (t : token) (r : string) : bool :=
  match t with
  | TIdent n => ends_name r && negb (starts_paren r) && negb (String.eqb n "--" && starts_gt r)
  | TAt _ | THash _ | TIdHash _ | TDimension _ _ => ends_name r
  | TFunction n => negb (is_url n) || starts_quote r
  | TDelim c => delim_follow c r
  | TNumber _ => num_follow r && negb (starts_percent r)
  | _ => true
  end.

(** ** First characters *)

Definition first (P : ascii -> bool) (s : string) : bool := match s with String c _ => P c | "" => false end.

Lemma blank_first : forall c, blank c = true ->
  name_char c = false /\ is_backslash c = false /\ is 40 c = false /\ is 62 c = false /\ is 37 c = false
  /\ is 42 c = false /\ is 33 c = false /\ digit_char c = false /\ is 46 c = false /\ is_dash c = false.
Proof. intros c. chars c; vm_compute (blank _); intros H; try discriminate; repeat split. Qed.

Lemma delim_first : forall c, delimiter c = true ->
  (is_dash c = false -> name_char c = false) /\ is_backslash c = false /\ is 40 c = false
  /\ digit_char c = false /\ name_start c = false.
Proof.
  intros c. chars c; vm_compute (delimiter _); intros H; try discriminate; repeat split; vm_compute (is_dash _);
    intros; try discriminate; reflexivity.
Qed.

Definition quiet (c : ascii) : bool :=
  negb (name_char c) && negb (is_backslash c) && negb (is 62 c) && negb (is 37 c)
  && negb (is 42 c) && negb (is 33 c) && negb (is 46 c).

(** Tokens that are neither words, numbers nor delimiters begin with a character of their own. *)
Lemma quiet_first : forall m u s r, prints m u s -> fine u = true -> live m u = true ->
  numeral u = false -> wordy u = false ->
  match u with TDelim _ | TMatch _ => false | _ => true end = true ->
  match u with TOpen Paren => false | _ => true end = true ->
  exists c x, s ++ r = String c x /\ quiet c = true /\ is 40 c = false.
Proof.
  intros m u s r P F L N W D O.
  assert (E : s = token_text m u).
  { destruct P as [P|[P|[a [P _]]]]; [exact P| |subst u; discriminate].
    rewrite P. destruct u; try reflexivity; discriminate. }
  clear P. subst s.
  destruct u as [n|n|n|n|t|t|n|d|n|n|n v|w|c| | | |o| | |b|b]; try discriminate N; try discriminate W; try discriminate D;
    try discriminate O; cbn [token_text].
  - eexists _, _. split; [reflexivity|]. split; reflexivity.
  - eexists _, _. split; [reflexivity|]. split; reflexivity.
  - eexists _, _. split; [reflexivity|]. split; reflexivity.
  - eexists _, _. split; [unfold ser_string, one; cbn [append]; reflexivity|]. split; reflexivity.
  - cbn [fine] in F. apply andb_true_iff in F. destruct F as [F1 F2]. destruct m.
    + eexists _, _. split; [reflexivity|]. split; reflexivity.
    + destruct w as [|c w]; [discriminate|]. cbn [all_blank append] in *. apply andb_true_iff in F2. destruct F2 as [B _].
      exists c, (w ++ r). split; [reflexivity|].
      destruct (blank_first c B) as (Q1 & Q2 & Q3 & Q4 & Q5 & Q6 & Q7 & _ & Q9 & _).
      unfold quiet. rewrite Q1, Q2, Q4, Q5, Q6, Q7, Q9, Q3. split; reflexivity.
  - destruct m; [discriminate L|]. eexists _, _. split; [reflexivity|]. split; reflexivity.
  - eexists _, _. split; [reflexivity|]. split; reflexivity.
  - eexists _, _. split; [reflexivity|]. split; reflexivity.
  - eexists _, _. split; [reflexivity|]. split; reflexivity.
  - eexists _, _. split; [reflexivity|]. split; reflexivity.
  - destruct b; try discriminate O; (eexists _, _; split; [reflexivity|]; split; reflexivity).
  - destruct b; (eexists _, _; split; [reflexivity|]; split; reflexivity).
Qed.

Lemma quiet_parts : forall c, quiet c = true ->
  name_char c = false /\ is_backslash c = false /\ is 62 c = false /\ is 37 c = false /\ is 42 c = false
  /\ is 33 c = false /\ is 46 c = false.
Proof.
  intros c H. unfold quiet in H. repeat (apply andb_true_iff in H; destruct H as [H ?]).
  repeat match goal with X : negb _ = true |- _ => apply negb_true_iff in X end. repeat split; assumption.
Qed.

Lemma name_char_digit : forall c, name_char c = false -> digit_char c = false /\ name_start c = false /\ is_dash c = false.
Proof.
  intros c H. unfold name_char in H. apply orb_false_iff in H. destruct H as [H H3]. apply orb_false_iff in H.
  destruct H as [H1 H2]. repeat split; assumption.
Qed.

(** What [apart] needs to know of the text of the next token. *)
Record beginning (u : token) (x : string) : Prop := {
  b_ends : numeral u = false -> wordy u = false -> delim_is 45 u = false -> ends_name x = true;
  b_paren : numeral u = false -> wordy u = false -> match u with TOpen Paren => true | _ => false end = false ->
            starts_paren x = false;
  b_gt : numeral u = false -> wordy u = false -> delim_is 62 u = false -> starts_gt x = false;
  b_digit : numeral u = false -> no_digit x = true;
  b_dot : numeral u = false -> dot_digit x = false;
  b_ident : wordy u = false -> starts_ident x = false;
  b_percent : numeral u = false -> wordy u = false -> delim_is 37 u = false -> starts_percent x = false;
  b_quote : match u with TString _ => true | _ => false end = true -> starts_quote x = true;
  b_star : delim_is 42 u = false -> match u with TMatch Substring => true | _ => false end = false ->
           first (is 42) x = false;
  b_bang : delim_is 33 u = false -> first (is 33) x = false
}.

Lemma begin_quiet : forall u c x, quiet c = true -> is 40 c = false ->
  match u with TString _ => starts_quote (String c x) | _ => true end = true ->
  beginning u (String c x).
Proof.
  intros u c x Q P S. destruct (quiet_parts c Q) as (N & B & G & C & T & X & D).
  destruct (name_char_digit c N) as (Dg & Ns & Da).
  constructor; intros; cbn [ends_name starts_paren starts_gt no_digit starts_ident starts_percent first];
    rewrite ?N, ?B, ?G, ?C, ?T, ?X, ?P, ?Dg, ?Da, ?Ns; try reflexivity.
  - cbn [dot_digit]. rewrite D. destruct x; reflexivity.
  - destruct u; try discriminate. exact S.
Qed.

Definition startish (s : string) : Prop := first (fun c => name_start c || is_dash c || is_backslash c) s = true.
Lemma starts_startish : forall s, starts_ident s = true -> startish s.
Proof.
  intros [|c r]; [discriminate|]. unfold startish. cbn [starts_ident first]. destruct (is_dash c); intros H.
  - apply orb_true_iff. left. apply orb_true_r.
  - rewrite orb_false_r. apply orb_true_iff in H. destruct H as [->|H]; [reflexivity|].
    apply andb_true_iff in H. destruct H as [-> _]. apply orb_true_r.
Qed.
Lemma begin_word : forall u x, wordy u = true -> startish x -> beginning u x.
Proof.
  intros u [|c x] W S; [discriminate S|]. unfold startish in S. cbn [first] in S.
  assert (K : digit_char c = false /\ is 46 c = false /\ is 42 c = false /\ is 33 c = false).
  { revert S. clear. chars c; vm_compute (name_start _); vm_compute (is_dash _); vm_compute (is_backslash _); cbn [orb];
      intros; try discriminate; repeat split. }
  destruct K as (K1 & K2 & K3 & K4).
  constructor; intros; try congruence; cbn [no_digit first]; rewrite ?K1, ?K2, ?K3, ?K4; try reflexivity.
  - cbn [dot_digit]. rewrite K2. destruct x; reflexivity.
  - destruct u; discriminate.
Qed.

Lemma shape_first : forall sg I F ex r, sign_ok sg = true -> all_digits I = true -> all_digits F = true ->
  (nonempty I || nonempty F) = true ->
  starts_ident (shape sg I F ex ++ r) = false /\ first (is 42) (shape sg I F ex ++ r) = false
  /\ first (is 33) (shape sg I F ex ++ r) = false /\ shape sg I F ex <> "".
Proof.
  intros sg I F ex r S HI HF NE. unfold shape.
  assert (K : exists c x, I ++ (if nonempty F then "." ++ F else "") ++ exp_text ex = String c x
              /\ (digit_char c || is 46 c) = true).
  { destruct I as [|i I].
    - cbn [nonempty orb] in NE. rewrite NE. eexists _, _. split; reflexivity.
    - cbn [all_digits append] in *. apply andb_true_iff in HI. destruct HI as [HI _].
      eexists _, _. split; [reflexivity|]. rewrite HI. reflexivity. }
  destruct K as (c & x & -> & K).
  assert (K' : name_start c = false /\ is_dash c = false /\ is_backslash c = false /\ is 42 c = false /\ is 33 c = false).
  { revert K. clear. chars c; vm_compute (digit_char _); vm_compute (is 46 _); cbn [orb]; intros; try discriminate; repeat split. }
  destruct K' as (K1 & K2 & K3 & K4 & K5).
  unfold sign_ok in S. apply orb_true_iff in S. destruct S as [S|S]; [apply orb_true_iff in S; destruct S as [S|S]|];
    apply String.eqb_eq in S; subst sg; cbn [append starts_ident first].
  - rewrite K1, K2, K3, K4, K5. repeat split; discriminate.
  - change (is_dash "-") with true. cbv iota. rewrite K1, K2, K3. repeat split; discriminate.
  - repeat split; discriminate.
Qed.

Lemma num_text_first : forall s n r, num_text s n ->
  starts_ident (s ++ r) = false /\ first (is 42) (s ++ r) = false /\ first (is 33) (s ++ r) = false /\ s <> "".
Proof.
  intros s n r (sg & I & F & ex & -> & H1 & H2 & H3 & H4 & _). apply shape_first; assumption.
Qed.

(** Numerals: the text is that of a number, then a percent sign or unit. *)
Lemma numeral_text : forall m u s, prints m u s -> fine u = true -> numeral u = true ->
  exists s1 n t, s = s1 ++ t /\ num_text s1 n /\
    ((u = TNumber n /\ t = "") \/ (u = TPercent n /\ t = "%") \/ (exists v, u = TDimension n v /\ t = unit_text v /\ unit_ok v = true)).
Proof.
  intros m u s P F N. destruct u as [a|a|a|a|t|t|a|d|n|n|n v|w|c| | | |o| | |b|b]; try discriminate N; cbn [fine] in F.
  - destruct P as [->|[->|[x [P _]]]]; [| |discriminate].
    + exists (write_numeric n), n, "". split; [symmetry; apply app_empty_r|]. split; [apply numeric_text, num_dec; exact F|]. tauto.
    + exists (short_number n), n, "". split; [symmetry; apply app_empty_r|]. split; [apply short_number_text; exact F|]. tauto.
  - destruct P as [->|[->|[x [P _]]]]; [| |discriminate].
    + exists (write_numeric n), n, "%". split; [reflexivity|]. split; [apply numeric_text, num_dec; exact F|]. tauto.
    + cbn [short_text]. destruct (short_percent_text n F) as (s1 & E & T). exists s1, n, "%". tauto.
  - apply andb_true_iff in F. destruct F as [F U]. destruct P as [->|[->|[x [P _]]]]; [| |discriminate].
    + exists (write_numeric n), n, (unit_text v). split; [reflexivity|]. split; [apply numeric_text, num_dec; exact F|].
      right. right. exists v. tauto.
    + cbn [short_text]. destruct (short_dimension_text n v F) as (s1 & E & T). exists s1, n, (unit_text v).
      split; [exact E|]. split; [exact T|]. right. right. exists v. tauto.
Qed.

Lemma begin_numeral : forall u x, numeral u = true ->
  starts_ident x = false -> first (is 42) x = false -> first (is 33) x = false -> beginning u x.
Proof.
  intros u x N A B C. constructor; intros; try congruence. destruct u; discriminate.
Qed.

Lemma dash_c : forall c, is_dash c = true -> c = "-"%char.
Proof. intros c. chars c; vm_compute (is_dash _); intros; try discriminate; reflexivity. Qed.
Lemma dot_c : forall c, is 46 c = true -> c = "."%char.
Proof. intros c. chars c; vm_compute (is 46 _); intros; try discriminate; reflexivity. Qed.

Lemma dot_reads : forall d r, digit_char d = true -> starts_number (String "." (String d r)) = true.
Proof.
  intros d r H. unfold starts_number, read_number. cbn [read_sign]. unfold read_unsigned.
  change (read_digits 0 0 (String "." (String d r))) with (0%Z, 0, String "." (String d r)). cbv iota beta zeta.
  cbn [read_digits]. rewrite digit_some by exact H.
  assert (K : forall s acc k, exists a b c, read_digits acc (S k) s = (a, S b, c)).
  { induction s as [|e s IH]; intros; cbn [read_digits]; [eexists _, _, _; reflexivity|].
    destruct (digit e); [apply IH|eexists _, _, _; reflexivity]. }
  destruct (K r (0 * 10 + Z.of_nat (code d - 48))%Z 0) as (a & b & c & ->).
  destruct (read_exponent c). reflexivity.
Qed.

Lemma begin_delim : forall c x, delimiter c = true -> delim_follow c x = true -> beginning (TDelim c) (String c x).
Proof.
  intros c x D F. destruct (delim_first c D) as (N & B & P & Dg & Ns).
  assert (DD : delim_is 45 (TDelim c) = is_dash c) by reflexivity.
  constructor; intros; cbn [ends_name starts_paren starts_gt no_digit starts_percent first delim_is] in *;
    try congruence.
  - rewrite B, N by assumption. reflexivity.
  - rewrite Dg. reflexivity.
  - cbn [dot_digit]. destruct x as [|d x]; [reflexivity|]. destruct (is 46 c) eqn:E; [|reflexivity].
    apply dot_c in E. subst c. destruct (digit_char d) eqn:G; [|reflexivity].
    unfold delim_follow in F. change (is 35 ".") with false in F. change (is 43 "." || is 46 ".")%bool with true in F.
    cbv iota in F. rewrite dot_reads in F by exact G. discriminate.
  - destruct (is_dash c) eqn:E.
    + pose proof (dash_c c E). subst c. unfold delim_follow in F. change (is 35 "-") with false in F.
      change (is 43 "-" || is 46 "-")%bool with false in F. change (is_dash "-") with true in F. cbv iota in F.
      apply andb_true_iff in F. destruct F as [_ F]. now apply negb_true_iff.
    + cbn [starts_ident]. rewrite E, Ns, B. reflexivity.
Qed.

Lemma begin_any : forall m u s r, prints m u s -> fine u = true -> live m u = true -> follow u r = true ->
  beginning u (s ++ r).
Proof.
  intros m u s r P F L Fo. destruct (numeral u) eqn:N.
  { destruct (numeral_text m u s P F N) as (s1 & n & t & -> & T & _). rewrite app_assoc_s.
    destruct (num_text_first s1 n (t ++ r) T) as (A & B & C & _). apply begin_numeral; assumption. }
  destruct (wordy u) eqn:W.
  { apply begin_word; [exact W|].
    destruct u as [n|n|n|n|t|t|n|d|n|n|n v|w|c| | | |o| | |b|b]; try discriminate W; cbn [fine] in F.
    - destruct P as [->|[->|[x [P _]]]]; [| |discriminate]; destruct (name_ok_parts _ F);
        apply starts_startish; apply ser_ident_starts; assumption.
    - destruct P as [->|[->|[x [P ->]]]]; try reflexivity.
    - destruct P as [->|[->|[x [P _]]]]; [| |discriminate]; destruct (name_ok_parts _ F);
        apply starts_startish; cbn [short_text token_text]; rewrite app_assoc_s; apply ser_ident_starts; assumption.
    - destruct P as [->|[->|[x [P _]]]]; try reflexivity; discriminate. }
  destruct (match u with TDelim _ | TMatch _ => false | _ => true end) eqn:D.
  - destruct (match u with TOpen Paren => false | _ => true end) eqn:O.
    + destruct (quiet_first m u s r P F L N W D O) as (c & x & E & Q & Pc). rewrite E. apply begin_quiet; try assumption.
      destruct u; try reflexivity. rewrite <- E.
      destruct P as [->|[->|[z [P _]]]]; [reflexivity|reflexivity|discriminate].
    + destruct u as [n|n|n|n|t|t|n|d|n|n|n v|w|c| | | |o| | |b|b]; try discriminate O. destruct b; try discriminate O.
      destruct P as [->|[->|[z [P _]]]]; [| |discriminate];
        (constructor; intros; try reflexivity; try discriminate; destruct r; reflexivity).
  - destruct u as [n|n|n|n|t|t|n|d|n|n|n v|w|c| | | |o| | |b|b]; try discriminate D.
    + destruct P as [->|[->|[x [P _]]]]; [| |discriminate]; apply begin_delim; assumption.
    + destruct P as [->|[->|[x [P _]]]]; [| |discriminate];
        destruct o; (constructor; intros; try reflexivity; discriminate).
Qed.

(** ** Neighbours that are apart *)

Lemma sign_none : forall c x, is 43 c || is_dash c = true -> no_digit x = true -> dot_digit x = false ->
  starts_number (String c x) = false.
Proof.
  intros c x C N D. unfold starts_number, read_number.
  assert (S : exists b, read_sign (String c x) = (b, x)).
  { revert C. clear. chars c; vm_compute (is 43 _); vm_compute (is_dash _); cbn [orb]; intros; try discriminate;
      eexists; reflexivity. }
  destruct S as [b ->]. unfold read_unsigned.
  change x with ("" ++ x) at 1. rewrite read_digits_app by (reflexivity || exact N).
  rewrite no_dot_frac by exact D. reflexivity.
Qed.
Lemma dot_none : forall x, no_digit x = true -> starts_number (String "." x) = false.
Proof.
  intros x N. unfold starts_number, read_number. cbn [read_sign]. unfold read_unsigned.
  change (read_digits 0 0 (String "." x)) with (0%Z, 0, String "." x). cbv iota beta zeta.
  change x with ("" ++ x). rewrite read_digits_app by (reflexivity || exact N). reflexivity.
Qed.

Lemma ends_opens : forall x, ends_name x = true -> opens_name x = false.
Proof.
  intros [|c x] H; [reflexivity|]. cbn [ends_name opens_name] in *. apply andb_true_iff in H. destruct H as [H1 H2].
  apply negb_true_iff in H1, H2. rewrite H1, H2. reflexivity.
Qed.
Lemma ends_dash : forall x, ends_name x = true -> starts_ident (String "-" x) = false /\ opens_cdc (String "-" x) = false.
Proof.
  intros [|c x] H; [split; reflexivity|]. cbn [ends_name] in H. apply andb_true_iff in H. destruct H as [H1 H2].
  apply negb_true_iff in H1, H2. destruct (name_char_digit c H1) as (_ & N & D).
  cbn [starts_ident opens_cdc]. change (is_dash "-") with true. cbv iota. rewrite N, D, H2. split; [reflexivity|].
  destruct x; reflexivity.
Qed.

Lemma or3 : forall a b c, negb (a || b || c) = true -> a = false /\ b = false /\ c = false.
Proof. intros [] [] []; cbn; intros; try discriminate; repeat split. Qed.
Lemma or4 : forall a b c d, negb (a || b || c || d) = true -> a = false /\ b = false /\ c = false /\ d = false.
Proof. intros [] [] [] []; cbn; intros; try discriminate; repeat split. Qed.

Lemma apart_follow : forall t u x, apart t u = true -> beginning u x -> follow t x = true.
Proof.
  intros t u x A B. destruct t as [n|n|n|n|s|s|n|d|n|n|n v|w|c| | | |o| | |b|b]; cbn [follow apart] in *; try reflexivity.
  - apply andb_true_iff in A. destruct A as [A G]. apply or4 in A. destruct A as (A1 & A2 & A3 & A4).
    rewrite (b_ends u x B A1 A2 A3), (b_paren u x B A1 A2 A4). cbn [negb andb].
    apply negb_true_iff in G. destruct (String.eqb n "--"); [|reflexivity]. cbn [andb] in *.
    rewrite (b_gt u x B A1 A2 G). reflexivity.
  - apply or3 in A. destruct A as (A1 & A2 & A3). exact (b_ends u x B A1 A2 A3).
  - apply or3 in A. destruct A as (A1 & A2 & A3). exact (b_ends u x B A1 A2 A3).
  - apply or3 in A. destruct A as (A1 & A2 & A3). exact (b_ends u x B A1 A2 A3).
  - destruct (is_url n); [|reflexivity]. cbn [negb orb] in *. exact (b_quote u x B A).
  - unfold delim_follow.
    destruct (is 35 d) eqn:E1.
    { apply or3 in A. destruct A as (A1 & A2 & A3). rewrite ends_opens by exact (b_ends u x B A1 A2 A3). reflexivity. }
    destruct (is 43 d || is 46 d) eqn:E2.
    { apply negb_true_iff in A. destruct (is 43 d) eqn:E3.
      - rewrite sign_none; [reflexivity| |exact (b_digit u x B A)|exact (b_dot u x B A)]. rewrite E3. reflexivity.
      - cbn [orb] in E2. apply dot_c in E2. subst d. rewrite dot_none by exact (b_digit u x B A). reflexivity. }
    change (is 45 d) with (is_dash d) in A. destruct (is_dash d) eqn:E3.
    { apply or3 in A. destruct A as (A1 & A2 & A3). pose proof (b_ends u x B A1 A2 A3) as E.
      rewrite sign_none; [| |exact (b_digit u x B A1)|exact (b_dot u x B A1)].
      - apply dash_c in E3. subst d. destruct (ends_dash x E) as [-> ->]. reflexivity.
      - rewrite E3. apply orb_true_r. }
    destruct (is 47 d) eqn:E4.
    { apply negb_true_iff, orb_false_iff in A. destruct A as [A1 A2]. pose proof (b_star u x B A1 A2) as S.
      destruct x as [|c x]; [reflexivity|]. cbn [first] in S. rewrite S. reflexivity. }
    destruct (is 60 d) eqn:E5.
    { apply negb_true_iff in A. pose proof (b_bang u x B A) as S.
      destruct x as [|c x]; [reflexivity|]. cbn [first] in S. rewrite S. reflexivity. }
    destruct (is 64 d) eqn:E6; [|reflexivity].
    apply negb_true_iff in A. rewrite (b_ident u x B A). reflexivity.
  - apply or3 in A. destruct A as (A1 & A2 & A3). unfold num_follow.
    rewrite (b_digit u x B A1), (b_dot u x B A1), (b_ident u x B A2), (b_percent u x B A1 A2 A3). reflexivity.
  - apply or3 in A. destruct A as (A1 & A2 & A3). exact (b_ends u x B A1 A2 A3).
Qed.

Lemma stops_follow : forall t r, may_end t = true -> stops r = true -> follow t r = true.
Proof.
  intros t r M S.
  assert (K : r = "" \/ exists c x, r = String c x /\ (c = ")" \/ c = ";" \/ c = "}")%char).
  { destruct r as [|c x]; [left; reflexivity|]. right. exists c, x. split; [reflexivity|].
    revert S. clear. cbn [stops existsb]. chars c; vm_compute (is 41 _); vm_compute (is 59 _); vm_compute (is 125 _);
      cbn [orb]; intros; try discriminate; tauto. }
  destruct t as [n|n|n|n|s|s|n|d|n|n|n v|w|c| | | |o| | |b|b]; cbn [follow may_end] in *; try reflexivity.
  - destruct K as [ -> | (c & x & -> & [ -> | [ -> | -> ] ])]; rewrite ?andb_false_r; reflexivity.
  - destruct K as [ -> | (c & x & -> & [ -> | [ -> | -> ] ])]; reflexivity.
  - destruct K as [ -> | (c & x & -> & [ -> | [ -> | -> ] ])]; reflexivity.
  - destruct K as [ -> | (c & x & -> & [ -> | [ -> | -> ] ])]; reflexivity.
  - rewrite M. reflexivity.
  - assert (N : no_digit r = true /\ dot_digit r = false /\ ends_name r = true /\ starts_ident r = false).
    { destruct K as [ -> | (c & x & -> & [ -> | [ -> | -> ] ])]; repeat split; try reflexivity; destruct x; reflexivity. }
    destruct N as (N1 & N2 & N3 & N4). unfold delim_follow.
    destruct (is 35 d); [rewrite ends_opens by exact N3; reflexivity|].
    destruct (is 43 d || is 46 d) eqn:E2.
    { destruct (is 43 d) eqn:E3.
      - rewrite sign_none; [reflexivity| |exact N1|exact N2]. rewrite E3. reflexivity.
      - cbn [orb] in E2. apply dot_c in E2. subst d. rewrite dot_none by exact N1. reflexivity. }
    destruct (is_dash d) eqn:E3.
    { rewrite sign_none; [| |exact N1|exact N2].
      - apply dash_c in E3. subst d. destruct (ends_dash r N3) as [-> ->]. reflexivity.
      - rewrite E3. apply orb_true_r. }
    rewrite N4. destruct K as [ -> | (c & x & -> & [ -> | [ -> | -> ] ])];
      destruct (is 47 d), (is 60 d), (is 64 d); reflexivity.
  - destruct K as [ -> | (c & x & -> & [ -> | [ -> | -> ] ])]; try reflexivity; destruct x; reflexivity.
  - destruct K as [ -> | (c & x & -> & [ -> | [ -> | -> ] ])]; reflexivity.
Qed.

(** ** One token *)

Lemma lexes_one : forall s t r, s <> "" -> next s = ([t], r) -> Lexes s [t] r.
Proof. intros s t r N E. change [t] with ([t] ++ [])%list. eapply LStep; [exact N|exact E|constructor]. Qed.

Lemma lexes_app : forall s k1 m k2 r, Lexes s k1 m -> Lexes m k2 r -> Lexes s (k1 ++ k2)%list r.
Proof.
  intros s k1 m k2 r H. induction H; intros K; [exact K|]. rewrite <- List.app_assoc.
  eapply LStep; [eassumption|eassumption|]. apply IHLexes. exact K.
Qed.

Definition is_sp (t : token) : bool := match t with TSpace _ => true | _ => false end.

Lemma ser_ident_nonempty : forall n r, name_ok n = true -> ser_ident n ++ r <> "".
Proof.
  intros n r H E. destruct (name_ok_parts _ H) as [A B]. pose proof (ser_ident_starts n r A B) as S.
  rewrite E in S. discriminate.
Qed.

Lemma lex_one : forall m t s r, prints m t s -> fine t = true -> live m t = true -> is_sp t = false ->
  follow t r = true -> exists k, Lexes (s ++ r) k r /\ Means t k.
Proof.
  intros m t s r P F L S Fo. destruct (numeral t) eqn:N.
  { destruct (numeral_text m t s P F N) as (s1 & n & x & -> & T & K).
    assert (NE : (s1 ++ x) ++ r <> "").
    { destruct (num_text_first s1 n "" T) as (_ & _ & _ & Z). destruct s1; [congruence|discriminate]. }
    exists (reading t). split; [|constructor].
    destruct K as [[-> ->]|[[-> ->]|(v & -> & -> & U)]]; cbn [reading follow] in *.
    - apply lexes_one; [exact NE|]. rewrite app_empty_r. apply andb_true_iff in Fo. destruct Fo as [F1 F2].
      apply lex_num; [exact T|exact F1|]. now apply negb_true_iff.
    - apply lexes_one; [exact NE|]. apply lex_percent. exact T.
    - apply lexes_one; [exact NE|]. apply lex_dimension; assumption. }
  assert (Q : s = token_text m t \/ exists u, t = TUrl u /\ s = "url(" ++ ser_string u ++ ")").
  { destruct P as [P|[P|P]]; [left; exact P| |right; exact P]. left. rewrite P. destruct t; try reflexivity; discriminate. }
  destruct Q as [->|(u & -> & ->)].
  - exists (reading t). split; [|constructor].
    destruct t as [n|n|n|n|x|x|n|d|n|n|n v|w|c| | | |o| | |b|b]; try discriminate N; try discriminate S;
      cbn [fine follow token_text reading] in *.
    + apply andb_true_iff in Fo. destruct Fo as [Fo F3]. apply andb_true_iff in Fo. destruct Fo as [F1 F2].
      apply negb_true_iff in F2, F3. apply lexes_one; [apply ser_ident_nonempty; exact F|]. apply lex_ident; assumption.
    + apply lexes_one; [discriminate|]. destruct (name_ok_parts _ F) as [A B]. cbn [append].
      apply lex_at_name; [apply ser_ident_starts; assumption|apply read_ident_text; assumption].
    + apply lexes_one; [discriminate|]. destruct (name_ok_parts _ F) as [A B]. cbn [append].
      apply lex_hash_name; [apply ser_name_opens; assumption|apply read_name_text; assumption].
    + apply lexes_one; [discriminate|]. destruct (name_ok_parts _ F) as [A B]. cbn [append].
      apply lex_hash_name; [apply starts_opens, ser_ident_starts; assumption|apply read_ident_text; assumption].
    + apply lexes_one; [discriminate|]. apply lex_string. exact F.
    + apply lexes_one; [discriminate|]. apply lex_url. exact F.
    + apply lexes_one; [rewrite app_assoc_s; apply ser_ident_nonempty; exact F|]. apply lex_function; assumption.
    + apply lexes_one; [discriminate|]. unfold one. cbn [append]. apply lex_delim; assumption.
    + unfold live in L. destruct m; [discriminate L|].
      change (@nil tok) with ([] ++ [] : list tok)%list. eapply LStep; [|apply lex_comment; exact F|constructor]. discriminate.
    + apply lexes_one; [discriminate|]. reflexivity.
    + apply lexes_one; [discriminate|]. reflexivity.
    + apply lexes_one; [discriminate|]. reflexivity.
    + destruct o; (eapply (lexes_app _ [_] (String "=" r) [_]); [apply lexes_one; [discriminate|reflexivity]|
        apply lexes_one; [discriminate|reflexivity]]).
    + apply lexes_one; [discriminate|]. reflexivity.
    + apply lexes_one; [discriminate|]. reflexivity.
    + destruct b; (apply lexes_one; [discriminate|]; reflexivity).
    + destruct b; (apply lexes_one; [discriminate|]; reflexivity).
  - eexists. split; [|apply MQuoted]. cbn [fine] in F.
    eapply (lexes_app _ [_] (ser_string u ++ String ")" r) [_; _]).
    + apply lexes_one; [discriminate|].
      assert (E : ("url(" ++ ser_string u ++ ")") ++ r = (ser_ident "url" ++ "(") ++ (ser_string u ++ String ")" r)).
      { cbn [append]. rewrite app_assoc_s. reflexivity. }
      rewrite E. apply lex_function; reflexivity.
    + eapply (lexes_app _ [_] (String ")" r) [_]).
      * apply lexes_one; [discriminate|]. apply lex_string. exact F.
      * apply lexes_one; [discriminate|]. reflexivity.
Qed.

(** ** Lists *)

Lemma squeeze_app : forall a k k', squeeze k = squeeze k' -> squeeze (a ++ k)%list = squeeze (a ++ k')%list.
Proof.
  induction a as [|t a IH]; intros k k' H; [exact H|]. cbn [List.app squeeze].
  rewrite (IH _ _ H). reflexivity.
Qed.

Lemma squeeze_space2 : forall k, squeeze (KSpace :: KSpace :: k) = squeeze (KSpace :: k).
Proof.
  intros k. cbn [squeeze]. destruct (squeeze k) as [|[] r]; reflexivity.
Qed.

Lemma skip_blank_stop : forall r, stops r = true -> skip_blank r = r.
Proof.
  intros [|c r] H; [reflexivity|]. revert H. cbn [stops skip_blank existsb].
  chars c; vm_compute (is 41 _); vm_compute (is 59 _); vm_compute (is 125 _); cbn [orb]; intros; try discriminate; reflexivity.
Qed.

Lemma lexes_space : forall X k r, stops r = true -> Lexes X k r ->
  exists k2, Lexes (skip_blank X) k2 r /\ squeeze (KSpace :: k2) = squeeze (KSpace :: k).
Proof.
  intros X k r S H. destruct (first blank X) eqn:B.
  - destruct X as [|c x]; [discriminate|]. cbn [first] in B.
    inversion H as [s|s k1 s' k2 r' NE E L]; subst.
    + pose proof (skip_blank_stop _ S) as Z. cbn [skip_blank] in Z. rewrite B in Z.
      exfalso. assert (LL : forall z, String.length (skip_blank z) <= String.length z).
      { induction z as [|d z IH]; [cbn; lia|]. cbn [skip_blank]. destruct (blank d); cbn [String.length]; lia. }
      specialize (LL x). rewrite Z in LL. cbn [String.length] in LL. lia.
    + assert (N : next (String c x) = ([KSpace], skip_blank x)).
      { change (String c x) with (String c "" ++ x). apply lex_space; [reflexivity|]. cbn [all_blank]. rewrite B. reflexivity. }
      rewrite N in E. injection E as <- <-. cbn [skip_blank]. rewrite B. exists k2. split; [exact L|].
      cbn [List.app]. symmetry. apply squeeze_space2.
  - exists k. split; [|reflexivity]. destruct X as [|c x]; [exact H|]. cbn [first] in B. cbn [skip_blank]. rewrite B. exact H.
Qed.

Definition link (t : token) (l : list token) : bool :=
  match l with [] => may_end t | u :: _ => apart t u end.

Definition piece_ok (m : bool) (p : token * string) : Prop := prints m (fst p) (snd p) /\ fine (fst p) = true.

Lemma kept_cons_live : forall m t l, live m t = true -> kept m (t :: l) = t :: kept m l.
Proof.
  intros m t l H. unfold kept, live in *. destruct m; [|reflexivity]. cbn [filter andb] in *.
  destruct t; try reflexivity; discriminate.
Qed.
Lemma kept_cons_dead : forall m t l, live m t = false -> kept m (t :: l) = kept m l.
Proof.
  intros m t l H. unfold kept, live in *. destruct m; [|discriminate]. cbn [filter andb] in *.
  destruct t; try reflexivity; discriminate.
Qed.
Lemma dead_text : forall m t s, live m t = false -> prints m t s -> s = "" /\ reading t = [].
Proof.
  intros m t s H P. unfold live in H. destruct m; [|discriminate]. destruct t; try discriminate.
  destruct P as [->|[->|[x [P _]]]]; [split; reflexivity|split; reflexivity|discriminate].
Qed.

Theorem lex_list : forall m (ps : list (token * string)) r,
  Forall (piece_ok m) ps -> all_apart (kept m (map fst ps)) = true -> stops r = true ->
  (forall t, link t (kept m (map fst ps)) = true -> follow t (cat (map snd ps) ++ r) = true)
  /\ exists k k', Lexes (cat (map snd ps) ++ r) k r /\ MeansAll (map fst ps) k' /\ squeeze k = squeeze k'.
Proof.
  intros m ps r. induction ps as [|[t s] ps IH]; intros OK A S.
  - split.
    + intros t L. cbn [map] in L. assert (may_end t = true) by (unfold kept in L; destruct m; exact L).
      apply stops_follow; assumption.
    + exists [], []. split; [constructor|]. split; [constructor|reflexivity].
  - pose proof (Forall_inv OK) as [P F]. pose proof (Forall_inv_tail OK) as OK'. cbn [fst snd] in P, F.
    cbn [map fst snd cat fold_right] in *. fold (cat (map snd ps)) in *.
    destruct (live m t) eqn:L.
    + rewrite kept_cons_live in * by exact L. cbn [all_apart] in A. apply andb_true_iff in A. destruct A as [A1 A2].
      destruct (IH OK' A2 S) as (IH1 & k & k' & IL & IM & IS).
      assert (Fo : follow t (cat (map snd ps) ++ r) = true) by (apply IH1; exact A1).
      rewrite app_assoc_s. split.
      * intros t0 L0. cbn [link] in L0. apply (apart_follow t0 t); [exact L0|]. eapply begin_any; eassumption.
      * destruct (is_sp t) eqn:Sp.
        -- destruct t; try discriminate Sp. cbn [fine] in F. apply andb_true_iff in F. destruct F as [F1 F2].
           destruct (lexes_space _ _ _ S IL) as (k2 & L2 & Q).
           assert (NX : nonempty s = true /\ all_blank s = true).
           { destruct P as [->|[->|[x [P _]]]]; [| |discriminate]; cbn [short_text token_text]; destruct m; split; assumption || reflexivity. }
           destruct NX as [NX1 NX2].
           exists (KSpace :: k2), (KSpace :: k'). split; [|split].
           ++ change (KSpace :: k2) with ([KSpace] ++ k2)%list. eapply LStep; [|apply lex_space; assumption|exact L2].
              destruct s; [discriminate|discriminate].
           ++ change (KSpace :: k') with ([KSpace] ++ k')%list. constructor; [|exact IM]. exact (MToken (TSpace w)).
           ++ rewrite Q. exact (squeeze_app [KSpace] _ _ IS).
        -- destruct (lex_one m t s _ P F L Sp Fo) as (k1 & L1 & M1).
           exists (k1 ++ k)%list, (k1 ++ k')%list. split; [eapply lexes_app; eassumption|].
           split; [constructor; assumption|]. apply squeeze_app. exact IS.
    + rewrite kept_cons_dead in * by exact L. destruct (dead_text m t s L P) as [-> R].
      destruct (IH OK' A S) as (IH1 & k & k' & IL & IM & IS). cbn [append]. split; [exact IH1|].
      exists k, k'. split; [exact IL|]. split; [|exact IS].
      change k' with ([] ++ k')%list. rewrite <- R. constructor; [constructor|exact IM].
Qed.
