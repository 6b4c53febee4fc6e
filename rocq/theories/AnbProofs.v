(** * Proofs about An+B *)
From Coq Require Import List Bool ZArith Lia Ascii String.
Import ListNotations.
From Verif Require Import AnimModel AnbModel AnbSpec.
Local Open Scope string_scope.
Local Open Scope Z_scope.

(** ** Characters *)
Lemma digit_chars (P : ascii -> Prop) :
  P "0"%char -> P "1"%char -> P "2"%char -> P "3"%char -> P "4"%char -> P "5"%char -> P "6"%char -> P "7"%char -> P "8"%char -> P "9"%char ->
  forall d, (d < 10)%nat -> P (ascii_of_nat (48 + d)).
Proof. intros. do 10 (destruct d; [assumption|]). lia. Qed.
Lemma digit_is d : (d < 10)%nat -> is_digit (ascii_of_nat (48 + d)) = true.
Proof. revert d. apply (digit_chars (fun c => is_digit c = true)); reflexivity. Qed.
Lemma digit_value_char d : (d < 10)%nat -> Z.of_nat (nat_of_ascii (ascii_of_nat (48 + d))) - 48 = Z.of_nat d.
Proof. intros H. do 10 (destruct d; [reflexivity|]). lia. Qed.

Lemma app_nil (s : string) : s ++ "" = s.
Proof. induction s as [|c s IH]; [reflexivity|]. cbn [append]. now rewrite IH. Qed.
Lemma app_assoc (a b c : string) : (a ++ b) ++ c = a ++ b ++ c.
Proof. induction a as [|x a IH]; [reflexivity|]. cbn [append]. now rewrite IH. Qed.
Lemma app_is_nil (a b : string) : a ++ b = "" -> a = "" /\ b = "".
Proof. destruct a; [auto|discriminate]. Qed.

(** ** Digits *)
Fixpoint all (p : ascii -> bool) (s : string) : Prop := match s with EmptyString => True | String c r => p c = true /\ all p r end.
Lemma all_app p a b : all p a -> all p b -> all p (a ++ b).
Proof. induction a as [|c a IH]; cbn [append all]; tauto. Qed.
Lemma all_impl (p q : ascii -> bool) : (forall c, p c = true -> q c = true) -> forall s, all p s -> all q s.
Proof. intros H. induction s as [|c s IH]; cbn [all]; intuition. Qed.
Lemma digits_all d v : digits d v -> all is_digit d /\ d <> "".
Proof.
  induction 1 as [d H|s v d D [IH N] H]; split.
  - cbn [all]. now rewrite digit_is.
  - discriminate.
  - apply all_app; [exact IH|]. cbn [all]. now rewrite digit_is.
  - intros E. destruct (app_is_nil _ _ E). contradiction.
Qed.
Lemma digits_value_app a b : forall acc, digits_value acc (a ++ b) = digits_value (digits_value acc a) b.
Proof. induction a as [|c a IH]; intros acc; [reflexivity|]. cbn [append digits_value]. apply IH. Qed.
Lemma digits_are d v : digits d v -> digits_value 0 d = v.
Proof.
  induction 1 as [d H|s v d D IH H].
  - cbn [digits_value]. rewrite digit_value_char by assumption. lia.
  - rewrite digits_value_app, IH. cbn [digits_value]. rewrite digit_value_char by assumption. reflexivity.
Qed.
Lemma digits_positive d v : digits d v -> 0 <= v.
Proof. induction 1; lia. Qed.
Lemma take_all p s r : all p s -> head p r = false -> take p (s ++ r) = (s, r).
Proof.
  induction s as [|c s IH]; cbn [append all].
  - intros _ H. destruct r as [|c r]; [reflexivity|]. cbn [head] in H. cbn [take]. rewrite H. reflexivity.
  - intros [E A] H. cbn [take]. rewrite E, (IH A H). reflexivity.
Qed.
Lemma take_digits d v r : digits d v -> head is_digit r = false -> take is_digit (d ++ r) = (d, r).
Proof. intros D H. apply take_all; [exact (proj1 (digits_all _ _ D))|exact H]. Qed.
Lemma all_digits_is d v : digits d v -> all_digits d = true.
Proof. intros D. destruct (digits_all _ _ D) as [A _]. clear D. induction d as [|c d IH]; [reflexivity|]. destruct A as [E A]. cbn [all_digits]. rewrite E, (IH A). reflexivity. Qed.
Lemma digit_cases c : is_digit c = true -> exists d, (d < 10)%nat /\ c = ascii_of_nat (48 + d).
Proof.
  unfold is_digit. intros H. apply andb_prop in H as [L U]. apply Nat.leb_le in L, U.
  exists (nat_of_ascii c - 48)%nat. split; [lia|]. replace (48 + (nat_of_ascii c - 48))%nat with (nat_of_ascii c) by lia. symmetry. apply ascii_nat_embedding.
Qed.
Lemma digit_char_facts c : is_digit c = true -> is_ws c = false /\ is_name c = true /\ Ascii.eqb c "+" = false /\ Ascii.eqb c "-" = false /\ is_name_start c = false.
Proof. intros H. destruct (digit_cases _ H) as (d & L & ->). clear H. revert d L. apply (digit_chars (fun c => is_ws c = false /\ is_name c = true /\ Ascii.eqb c "+" = false /\ Ascii.eqb c "-" = false /\ is_name_start c = false)); repeat split. Qed.
Lemma digit_head d v : digits d v -> forall r, exists c s, d ++ r = String c (s ++ r) /\ d = String c s /\ is_digit c = true.
Proof. intros D r. destruct (digits_all _ _ D) as [A N]. destruct d as [|c s]; [contradiction|]. exists c, s. split; [reflexivity|]. split; [reflexivity|apply A]. Qed.
Lemma clamp_in z : int32 z -> clamp z = z.
Proof. unfold int32, clamp. lia. Qed.

(** ** Numbers at the end of the text *)
Lemma number_end signed neg d v : digits d v ->
  number signed neg d = (Num signed (clamp (if neg then - v else v)), "").
Proof.
  intros D. unfold number. pose proof (take_digits _ _ "" D eq_refl) as T. rewrite app_nil in T. rewrite T. cbn [not_integer starts_ident].
  rewrite (digits_are _ _ D). reflexivity.
Qed.
(** ... and before the letter of An+B *)
Lemma number_dim signed neg d v n o name rest : digits d v -> letter_n n -> take is_name (n ++ o) = (name, rest) ->
  number signed neg (d ++ n ++ o) = (Dim signed (clamp (if neg then - v else v)) name, rest).
Proof.
  intros D N T. unfold number.
  assert (S : not_integer (n ++ o) = false /\ starts_ident (n ++ o) = true /\ head is_digit (n ++ o) = false).
  { destruct N; cbn [append]; (split; [destruct o as [|? ?]; reflexivity|]; split; reflexivity). }
  destruct S as (S1 & S2 & S3). rewrite (take_digits _ _ _ D S3), S1, S2, T, (digits_are _ _ D). reflexivity.
Qed.

(** ** Spaces *)
Lemma ws_char c : In c [" "%char; "009"%char; "010"%char; "012"%char; "013"%char] -> is_ws c = true.
Proof. cbn [In]. intuition subst; try reflexivity. Qed.
Lemma spaces_all w : spaces w -> all is_ws w.
Proof. induction 1 as [|c s I _ IH]; [exact Logic.I|]. split; [apply ws_char; exact I|exact IH]. Qed.
Lemma next_not_ws x : head is_ws x = false -> match next x with Some (Ws, _) => False | _ => True end.
Proof.
  destruct x as [|c x]; [exact (fun _ => I)|]. cbn [head]. intros H. unfold next. rewrite H.
  assert (NW : forall s n y, match number s n y with (Ws, _) => False | _ => True end).
  { intros s n y. unfold number. destruct (take is_digit y) as [d r]. destruct (not_integer r); [exact I|]. destruct (starts_ident r); [|exact I]. destruct (take is_name r). exact I. }
  destruct (is_digit c). { specialize (NW false false (String c x)). destruct (number false false (String c x)) as [[] ?]; tauto. }
  destruct (Ascii.eqb c "+" && head is_digit x). { specialize (NW true false x). destruct (number true false x) as [[] ?]; tauto. }
  destruct (Ascii.eqb c "-" && head is_digit x). { specialize (NW true true x). destruct (number true true x) as [[] ?]; tauto. }
  destruct (starts_ident (String c x)); [|exact I]. destruct (take is_name (String c x)). exact I.
Qed.
Lemma next_skip_spaces w x : spaces w -> head is_ws x = false -> next_skip (w ++ x) = next x.
Proof.
  intros S H. pose proof (next_not_ws _ H) as N. destruct S as [|c s I S].
  - cbn [append]. unfold next_skip. destruct (next x) as [[[] r]|]; try reflexivity. contradiction.
  - unfold next_skip. cbn [append next]. rewrite (ws_char _ I). rewrite (take_all is_ws s x (spaces_all _ S) H). reflexivity.
Qed.
Lemma next_digits d v : digits d v -> next d = Some (Num false (clamp v), "").
Proof.
  intros D. destruct (digit_head _ _ D "") as (c & s & _ & E & Hc). destruct (digit_char_facts _ Hc) as (F1 & _).
  rewrite E. unfold next. rewrite F1, Hc, <- E. now rewrite (number_end false false _ _ D).
Qed.
Lemma digits_no_ws d v r : digits d v -> head is_ws (d ++ r) = false.
Proof. intros D. destruct (digit_head _ _ D r) as (c & s & E & _ & Hc). rewrite E. exact (proj1 (digit_char_facts _ Hc)). Qed.
Lemma signless a k w d v : spaces w -> digits d v -> parse_signless_b a k (w ++ d) = Some (a, k * clamp v, "").
Proof.
  intros S D. unfold parse_signless_b. pose proof (digits_no_ws _ _ "" D) as H. rewrite app_nil in H.
  rewrite (next_skip_spaces _ _ S H), (next_digits _ _ D). reflexivity.
Qed.
Lemma sign_cases s k : sign s k -> (s = "+" /\ k = 1) \/ (s = "-" /\ k = -1).
Proof. destruct 1; auto. Qed.
Lemma next_signed s k d v : sign s k -> digits d v -> next (s ++ d) = Some (Num true (clamp (k * v)), "").
Proof.
  intros S D. destruct (digit_head _ _ D "") as (c & x & _ & E & Hc).
  assert (Hh : head is_digit d = true) by (rewrite E; exact Hc).
  assert (F : clamp (1 * v) = clamp v /\ clamp (-1 * v) = clamp (- v)) by (split; f_equal; lia). destruct F as [F1 F2].
  destruct (sign_cases _ _ S) as [[-> ->]|[-> ->]]; cbn [append]; unfold next; cbn; rewrite Hh.
  - rewrite (number_end true false _ _ D). now rewrite <- F1.
  - rewrite (number_end true true _ _ D). now rewrite <- F2.
Qed.
Lemma next_sign_alone s k c w x : sign s k -> is_ws c = true -> next (s ++ String c w ++ x) = Some (Delim (match s with String d _ => d | "" => c end), String c w ++ x).
Proof.
  intros S H. assert (Hd : is_digit c = false /\ is_name_start c = false /\ Ascii.eqb c "-" = false).
  { revert H. clear. destruct c as [[] [] [] [] [] [] [] []]; cbn; intros H; try discriminate H; repeat split. }
  destruct Hd as (D1 & D2 & D3).
  destruct (sign_cases _ _ S) as [[-> ->]|[-> ->]]; cbn [append]; unfold next; cbn; rewrite D1; [reflexivity|]. rewrite D2, D3. reflexivity.
Qed.
(** The offset after [n], when it is not glued to it *)
Lemma parse_b_offset a w s w' d k v : spaces w -> sign s k -> spaces w' -> digits d v -> - 2147483648 <= k * v <= 2147483647 -> (w' = "" \/ k * v <> - 2147483648) ->
  parse_b a (w ++ s ++ w' ++ d) = Some (a, k * v, "").
Proof.
  intros W S W' D R E. unfold parse_b. pose proof (digits_positive _ _ D) as P.
  assert (H : head is_ws (s ++ w' ++ d) = false) by (destruct (sign_cases _ _ S) as [[-> _]|[-> _]]; reflexivity).
  rewrite (next_skip_spaces _ _ W H). destruct W' as [|c x I W'].
  - cbn [append]. rewrite (next_signed _ _ _ _ S D). now rewrite (clamp_in (k * v)).
  - rewrite (next_sign_alone s k c x d S (ws_char _ I)). destruct E as [E|E]; [discriminate|].
    pose proof (signless a k (String c x) d v (space_more c x I W') D) as Q.
    rewrite (clamp_in v) in Q by (unfold int32; destruct (sign_cases _ _ S) as [[_ ->]|[_ ->]]; lia).
    destruct (sign_cases _ _ S) as [[-> ->]|[-> ->]]; exact Q.
Qed.
Lemma parse_b_end a : parse_b a "" = Some (a, 0, "").
Proof. reflexivity. Qed.

(** ** What follows the letter: what the name takes, and what is read then *)
Definition after_n (name rest : string) (a : Z) : option (Z * Z * string) :=
  if is_kw "n" name then parse_b a rest
  else if is_kw "n-" name then parse_signless_b a (-1) rest
  else match n_dash_digits name with Some b => Some (a, b, rest) | None => None end.
Inductive tail : string -> Z -> Prop :=
| tail_none : tail "" 0
| tail_offset w s w' d k v : spaces w -> sign s k -> spaces w' -> digits d v -> int32 (k * v) -> (w' = "" \/ k * v <> - 2147483648) -> tail (w ++ s ++ w' ++ d) (k * v).
Lemma name_of_digit c : is_digit c = true -> is_name c = true.
Proof. intros H. apply (digit_char_facts _ H). Qed.
Lemma ws_not_name c : is_ws c = true -> is_name c = false.
Proof. destruct c as [[] [] [] [] [] [] [] []]; cbn; intros H; try discriminate H; reflexivity. Qed.
Lemma lower_digits s : all is_digit s -> lower s = s.
Proof.
  induction s as [|c s IH]; [reflexivity|]. intros [E A]. cbn [lower]. rewrite (IH A). f_equal.
  destruct (digit_cases _ E) as (d & L & ->). revert d L E. apply (digit_chars (fun c => is_digit c = true -> lower_char c = c)); reflexivity.
Qed.
Lemma dashed_name n d v : letter_n n -> digits d v -> is_kw "n" (n ++ "-" ++ d) = false /\ is_kw "n-" (n ++ "-" ++ d) = false /\ n_dash_digits (n ++ "-" ++ d) = Some (clamp (- v)).
Proof.
  intros N D. destruct (digit_head _ _ D "") as (c & x & _ & E & Hc). pose proof (all_digits_is _ _ D) as A. pose proof (digits_are _ _ D) as V.
  subst d. destruct N; (split; [reflexivity|]; split; [reflexivity|]); cbn [append n_dash_digits]; rewrite A, V; reflexivity.
Qed.
Lemma after_letter n o b : letter_n n -> tail o b ->
  exists name rest, take is_name (n ++ o) = (name, rest) /\ (forall a, after_n name rest a = Some (a, b, ""))
    /\ (exists x, name = n ++ x /\ (x = "" \/ exists y, x = String "-" y /\ all is_digit y)).
Proof.
  intros N T.
  assert (Nn : all is_name n) by (destruct N; split; reflexivity || exact I).
  assert (Kn : is_kw "n" n = true) by (destruct N; reflexivity).
  destruct T as [|w s w' d k v W S W' D R E].
  - exists n, "". split; [apply take_all; [exact Nn|reflexivity]|]. split; [|exists ""; rewrite app_nil; auto].
    intros a. unfold after_n. rewrite Kn. apply parse_b_end.
  - assert (B : head is_name (w ++ s ++ w' ++ d) = false -> exists name rest, take is_name (n ++ w ++ s ++ w' ++ d) = (name, rest) /\ (forall a, after_n name rest a = Some (a, k * v, ""))
      /\ (exists x, name = n ++ x /\ (x = "" \/ exists y, x = String "-" y /\ all is_digit y))).
    { intros H. exists n, (w ++ s ++ w' ++ d). split; [apply take_all; assumption|]. split; [|exists ""; rewrite app_nil; auto].
      intros a. unfold after_n. rewrite Kn. apply parse_b_offset; assumption. }
    destruct W as [|c x I W]; [|apply B; cbn [append head]; apply ws_not_name, ws_char, I].
    destruct (sign_cases _ _ S) as [[-> ->]|[-> ->]]; [apply B; reflexivity|]. clear B.
    pose proof (digits_positive _ _ D) as P.
    destruct W' as [|c x I W'].
    + destruct (dashed_name n d v N D) as (K1 & K2 & K3). exists (n ++ "-" ++ d), "". split; [|split].
      * cbn [append]. pose proof (take_all is_name (n ++ "-" ++ d) "") as Q. rewrite app_nil in Q. apply Q; [|reflexivity].
        apply all_app; [exact Nn|]. split; [reflexivity|]. apply (all_impl is_digit); [exact name_of_digit|]. apply (digits_all _ _ D).
      * intros a. unfold after_n. rewrite K1, K2, K3. rewrite clamp_in by (unfold int32 in *; lia). now replace (- v) with (-1 * v) by lia.
      * exists ("-" ++ d). split; [reflexivity|]. right. exists d. split; [reflexivity|]. apply (digits_all _ _ D).
    + exists (n ++ "-"), (String c x ++ d). split; [|split].
      * cbn [append]. pose proof (take_all is_name (n ++ "-") (String c x ++ d)) as Q. rewrite app_assoc in Q. apply Q.
        { destruct N; repeat split. } { cbn [append head]. apply ws_not_name, ws_char, I. }
      * intros a. unfold after_n. replace (is_kw "n" (n ++ "-")) with false by (destruct N; reflexivity). replace (is_kw "n-" (n ++ "-")) with true by (destruct N; reflexivity).
        rewrite (signless a (-1) (String c x) d v (space_more _ _ I W') D). rewrite clamp_in; [reflexivity|]. destruct E as [E|E]; [discriminate|]. unfold int32 in *; lia.
      * exists "-". split; [reflexivity|]. right. exists "". split; [reflexivity|exact Logic.I].
Qed.

(** ** The three ways the letter is read *)
Lemma dim_read signed neg d v n o name rest : digits d v -> letter_n n -> take is_name (n ++ o) = (name, rest) ->
  number signed neg (d ++ n ++ o) = (Dim signed (clamp (if neg then - v else v)) name, rest).
Proof. apply number_dim. Qed.
Lemma digits_first d v r : digits d v -> next_skip (d ++ r) = Some (number false false (d ++ r)).
Proof.
  intros D. pose proof (digits_no_ws _ _ r D) as H. pose proof (next_skip_spaces "" (d ++ r) space_none H) as Q. cbn [append] in Q. rewrite Q.
  destruct (digit_head _ _ D r) as (c & s & E & _ & Hc). rewrite E. destruct (digit_char_facts _ Hc) as (F1 & _). unfold next. rewrite F1, Hc. reflexivity.
Qed.
Lemma signed_first s k d v r : sign s k -> digits d v -> next_skip (s ++ d ++ r) = Some (number true (k <? 0) (d ++ r)).
Proof.
  intros S D. assert (H : head is_ws (s ++ d ++ r) = false) by (destruct (sign_cases _ _ S) as [[-> _]|[-> _]]; reflexivity).
  pose proof (next_skip_spaces "" _ space_none H) as Q. cbn [append] in Q. rewrite Q.
  destruct (digit_head _ _ D r) as (c & x & E & _ & Hc). assert (Hh : head is_digit (d ++ r) = true) by (rewrite E; exact Hc).
  destruct (sign_cases _ _ S) as [[-> ->]|[-> ->]]; cbn [append]; unfold next; cbn; rewrite Hh; reflexivity.
Qed.
Lemma next_ident c r : is_ws c = false -> is_digit c = false -> Ascii.eqb c "+" && head is_digit r = false -> Ascii.eqb c "-" && head is_digit r = false ->
  starts_ident (String c r) = true -> next (String c r) = let '(i, r') := take is_name (String c r) in Some (Id i, r').
Proof. intros H1 H2 H3 H4 H5. unfold next. rewrite H1, H2, H3, H4, H5. reflexivity. Qed.
Lemma step_read s a n o b : step s a -> int32 a -> letter_n n -> tail o b -> parse_nth (s ++ n ++ o) = Some (a, b, "").
Proof.
  intros S Ra N T. destruct (after_letter n o b N T) as (name & rest & Tk & Af & x & Ex & Hx).
  destruct S as [s d k v Os D|s k Os].
  - rewrite app_assoc. unfold parse_nth. destruct Os as [|s k Sg].
    + cbn [append]. rewrite (digits_first _ _ _ D), (number_dim _ _ _ _ _ _ _ _ D N Tk). rewrite clamp_in by (unfold int32 in *; lia).
      specialize (Af v). unfold after_n in Af. replace (1 * v) with v by lia. exact Af.
    + rewrite (signed_first _ _ _ _ _ Sg D), (number_dim _ _ _ _ _ _ _ _ D N Tk).
      replace (clamp (if k <? 0 then - v else v)) with (k * v).
      * exact (Af (k * v)).
      * destruct (sign_cases _ _ Sg) as [[_ ->]|[_ ->]]; cbn [Z.ltb Z.compare]; rewrite clamp_in; unfold int32 in *; lia.
  - assert (St : starts_ident (n ++ o) = true /\ head is_ws (n ++ o) = false /\ head is_digit (n ++ o) = false) by (destruct N; repeat split).
    destruct St as (St & Sw & Sd).
    assert (Nx : next (n ++ o) = Some (Id name, rest)).
    { destruct N; cbn [append] in *; rewrite next_ident by reflexivity; rewrite Tk; reflexivity. }
    assert (Nd : next ("-" ++ n ++ o) = Some (Id ("-" ++ name), rest)).
    { assert (Tk' : take is_name (String "-" (n ++ o)) = (String "-" name, rest)) by (cbn [take]; change (is_name "-") with true; cbv iota; rewrite Tk; reflexivity).
      cbn [append]. destruct N; cbn [append] in *; rewrite next_ident by reflexivity; rewrite Tk'; reflexivity. }
    destruct Os as [|s k Sg].
    + cbn [append]. unfold parse_nth. pose proof (next_skip_spaces "" _ space_none Sw) as Q. cbn [append] in Q. rewrite Q, Nx.
      specialize (Af 1). unfold after_n in Af. subst name. destruct N; cbn [append] in *.
      * change (is_kw "even" (String "n" x)) with false. change (is_kw "odd" (String "n" x)) with false. change (is_kw "-n" (String "n" x)) with false. change (is_kw "-n-" (String "n" x)) with false. exact Af.
      * change (is_kw "even" (String "N" x)) with false. change (is_kw "odd" (String "N" x)) with false. change (is_kw "-n" (String "N" x)) with false. change (is_kw "-n-" (String "N" x)) with false. exact Af.
    + destruct (sign_cases _ _ Sg) as [[-> ->]|[-> ->]].
      * unfold parse_nth. change (next_skip ("+" ++ n ++ o)) with (match next ("+" ++ n ++ o) with Some (Ws, r) => next r | y => y end).
        assert (Np : next ("+" ++ n ++ o) = Some (Delim "+", n ++ o)). { cbn [append]. unfold next. cbn. rewrite Sd. reflexivity. }
        rewrite Np, Nx. exact (Af 1).
      * unfold parse_nth. pose proof (next_skip_spaces "" ("-" ++ n ++ o) space_none eq_refl) as Q. cbn [append] in Q. cbn [append] in Nd. cbn [append]. rewrite Q, Nd.
        specialize (Af (-1)). unfold after_n in Af.
        change (is_kw "even" (String "-" name)) with false. change (is_kw "odd" (String "-" name)) with false. change (is_kw "n" (String "-" name)) with false.
        change (is_kw "n-" (String "-" name)) with false. change (is_kw "-n" (String "-" name)) with (is_kw "n" name). change (is_kw "-n-" (String "-" name)) with (is_kw "n-" name). exact Af.
Qed.

(** ** Words *)
Lemma any_case_lower a b : any_case a b -> lower a = a -> lower b = a.
Proof.
  induction 1 as [|c a b H IH|c a b R H IH]; cbn [lower]; [auto| |]; intros E; injection E as E1 E2; rewrite (IH E2); f_equal; [exact E1|].
  clear -R. unfold lower_char. rewrite nat_ascii_embedding by lia.
  assert (U : (Nat.leb 65 (c - 32) && Nat.leb (c - 32) 90)%bool = true) by (apply andb_true_intro; split; apply Nat.leb_le; lia).
  rewrite U. f_equal. lia.
Qed.
Lemma lower_name c : is_name_start (lower_char c) = true -> is_name_start c = true.
Proof. destruct c as [[] [] [] [] [] [] [] []]; cbn; auto. Qed.
Lemma word_read w b rest : any_case w b -> lower w = w -> all is_name_start w -> w <> "" -> next_skip (b ++ rest) = (let '(i, r') := take is_name (b ++ rest) in Some (Id i, r')).
Proof.
  intros C L A Ne. pose proof (any_case_lower _ _ C L) as E.
  destruct b as [|c b]; [cbn [lower] in E; subst; contradiction|].
  assert (Hc : is_name_start c = true). { apply lower_name. destruct w; [contradiction|]. cbn [lower] in E. injection E as -> _. apply A. }
  assert (F : is_ws c = false /\ is_digit c = false /\ Ascii.eqb c "+" = false /\ Ascii.eqb c "-" = false).
  { revert Hc. clear. destruct c as [[] [] [] [] [] [] [] []]; cbn; intros H; try discriminate H; repeat split. }
  destruct F as (F1 & F2 & F3 & F4). cbn [append]. unfold next_skip, next. rewrite F1, F2, F3, F4. cbn [andb].
  assert (St : starts_ident (String c (b ++ rest)) = true).
  { unfold starts_ident. destruct (Ascii.eqb_spec c "-") as [->|_]; [discriminate Hc|]. revert Hc. clear. destruct c as [[] [] [] [] [] [] [] []]; cbn; intros H; try discriminate H; reflexivity. }
  rewrite St. destruct (take is_name (String c (b ++ rest))). reflexivity.
Qed.
Lemma lower_all b w : lower b = w -> all is_name_start w -> all is_name b.
Proof.
  revert w. induction b as [|c b IH]; intros w E A; [exact I|]. cbn [lower] in E. subst w. destruct A as [A1 A2]. split; [|apply (IH _ eq_refl A2)].
  unfold is_name. rewrite (lower_name _ A1). reflexivity.
Qed.

(** ** Reading *)
Theorem read_text s a b : anb_text s a b -> int32 a -> int32 b -> b <> - 2147483648 -> read_anb s = Some (a, b).
Proof.
  intros T Ra Rb Nb. assert (P : parse_nth s = Some (a, b, "")); [|unfold read_anb; rewrite P; reflexivity].
  destruct T as [s C|s C|s d k v Os D|s n a St N|s n o a b St N O].
  - pose proof (any_case_lower _ _ C eq_refl) as L. pose proof (word_read _ _ "" C eq_refl ltac:(repeat split) ltac:(discriminate)) as W. rewrite app_nil in W.
    pose proof (take_all is_name s "" (lower_all _ _ L ltac:(repeat split)) eq_refl) as Tk. rewrite app_nil in Tk. rewrite Tk in W.
    unfold parse_nth. rewrite W. unfold is_kw. rewrite L. reflexivity.
  - pose proof (any_case_lower _ _ C eq_refl) as L. pose proof (word_read _ _ "" C eq_refl ltac:(repeat split) ltac:(discriminate)) as W. rewrite app_nil in W.
    pose proof (take_all is_name s "" (lower_all _ _ L ltac:(repeat split)) eq_refl) as Tk. rewrite app_nil in Tk. rewrite Tk in W.
    unfold parse_nth. rewrite W. unfold is_kw. rewrite L. reflexivity.
  - pose proof (digits_positive _ _ D). unfold parse_nth. destruct Os as [|s k Sg].
    + cbn [append]. pose proof (digits_first _ _ "" D) as Q. rewrite app_nil in Q. rewrite Q, (number_end _ _ _ _ D).
      rewrite clamp_in by (unfold int32 in *; lia). do 3 f_equal. lia.
    + pose proof (signed_first _ _ _ _ "" Sg D) as Q. rewrite app_nil in Q. rewrite Q, (number_end _ _ _ _ D).
      destruct (sign_cases _ _ Sg) as [[_ ->]|[_ ->]]; cbn [Z.ltb Z.compare]; rewrite clamp_in by (unfold int32 in *; lia); do 3 f_equal; lia.
  - pose proof (step_read s a n "" 0 St Ra N tail_none) as Q. rewrite app_nil in Q. exact Q.
  - apply step_read; try assumption. destruct O as [w s' w' d k v W S W' D]. apply tail_offset; auto.
Qed.

(** ** Printing *)
Lemma digit_N v : (v < 10)%N -> ascii_of_N (48 + v) = ascii_of_nat (48 + N.to_nat v).
Proof. intros H. unfold ascii_of_nat. f_equal. lia. Qed.
Lemma size_nat_div v : (10 <= v)%N -> (N.size_nat (v / 10) < N.size_nat v)%nat.
Proof.
  intros H. assert (D : (v / 10 <= N.div2 v)%N). { rewrite N.div2_div. apply N.div_le_compat_l. lia. }
  assert (M : forall x y, (x <= y)%N -> (N.size_nat x <= N.size_nat y)%nat).
  { intros x y L. destruct x as [|x]; [cbn; lia|]. destruct y as [|y]; [lia|]. cbn [N.size_nat]. revert y L.
    induction x as [x IH|x IH|]; intros [y|y|] L; cbn [Pos.size_nat]; try lia; specialize (IH y ltac:(lia)); lia. }
  specialize (M _ _ D). destruct v as [|v]; [lia|]. destruct v; cbn [N.div2 N.size_nat Pos.size_nat] in *; lia.
Qed.
Lemma dec_digits_are fuel : forall v acc, (N.size_nat v < fuel)%nat -> exists s, dec_digits fuel v acc = s ++ acc /\ digits s (Z.of_N v).
Proof.
  induction fuel as [|f IH]; intros v acc L; [lia|]. cbn [dec_digits]. pose proof (N.mod_lt v 10 ltac:(lia)) as M.
  rewrite (digit_N _ M). set (c := ascii_of_nat _). destruct (N.ltb_spec v 10) as [S|S].
  - exists (String c ""). split; [reflexivity|]. unfold c. replace (Z.of_N v) with (Z.of_nat (N.to_nat (v mod 10))); [apply digit_one; lia|]. rewrite N.mod_small by exact S. lia.
  - destruct (IH (v / 10)%N (String c acc)) as (s & E & D); [pose proof (size_nat_div v S); lia|].
    exists (s ++ String c ""). split; [rewrite E, app_assoc; reflexivity|].
    replace (Z.of_N v) with (Z.of_N (v / 10) * 10 + Z.of_nat (N.to_nat (v mod 10))); [apply digit_more; [exact D|lia]|].
    pose proof (N.div_mod v 10 ltac:(lia)). lia.
Qed.
Lemma decimal_digits n : digits (decimal n) (Z.of_N n).
Proof. unfold decimal. destruct (dec_digits_are (S (N.size_nat n)) n "" ltac:(lia)) as (s & E & D). rewrite E, app_nil. exact D. Qed.
Lemma fmt_parts z : exists s d k v, fmt z = s ++ d /\ opt_sign s k /\ digits d v /\ z = k * v.
Proof.
  unfold fmt. destruct (Z.ltb_spec z 0) as [L|L].
  - exists "-", (decimal (Z.to_N (- z))), (-1), (- z). split; [reflexivity|]. split; [constructor; constructor|]. split; [|lia].
    pose proof (decimal_digits (Z.to_N (- z))) as D. rewrite Z2N.id in D by lia. exact D.
  - exists "", (decimal (Z.to_N z)), 1, z. split; [reflexivity|]. split; [constructor|]. split; [|lia].
    pose proof (decimal_digits (Z.to_N z)) as D. rewrite Z2N.id in D by lia. exact D.
Qed.
Lemma fmt_sign_parts z : exists s d k v, fmt_sign z = s ++ d /\ sign s k /\ digits d v /\ z = k * v.
Proof.
  unfold fmt_sign. destruct (Z.ltb_spec z 0) as [L|L].
  - exists "-", (decimal (Z.to_N (- z))), (-1), (- z). split; [reflexivity|]. split; [constructor|]. split; [|lia].
    pose proof (decimal_digits (Z.to_N (- z))) as D. rewrite Z2N.id in D by lia. exact D.
  - exists "+", (decimal (Z.to_N z)), 1, z. split; [reflexivity|]. split; [constructor|]. split; [|lia].
    pose proof (decimal_digits (Z.to_N z)) as D. rewrite Z2N.id in D by lia. exact D.
Qed.
(** What is printed, as a step with its letter and an offset without spaces *)
Inductive printed : string -> Z -> Z -> Prop :=
| printed_odd : printed "odd" 2 1
| printed_number s d k v : opt_sign s k -> digits d v -> printed (s ++ d) 0 (k * v)
| printed_step s a : step s a -> printed (s ++ "n") a 0
| printed_full s a t d k v : step s a -> sign t k -> digits d v -> printed (s ++ "n" ++ t ++ d) a (k * v).
Lemma affine_printed a b : printed (affine a b) a b.
Proof.
  unfold affine.
  assert (St : forall z, step (fmt z) z). { intros z. destruct (fmt_parts z) as (s & d & k & v & -> & S & D & ->). apply step_number; assumption. }
  destruct (Z.eqb_spec b 0) as [->|Nb].
  - destruct (Z.eqb_spec a 0) as [->|N0]; [exact (printed_number "" "0" 1 0 no_sign (digit_one 0 ltac:(lia)))|].
    destruct (Z.eqb_spec a 1) as [->|N1]; [exact (printed_step "" 1 (step_sign "" 1 no_sign))|].
    destruct (Z.eqb_spec a (-1)) as [->|N2]; [exact (printed_step "-" (-1) (step_sign "-" (-1) (some_sign _ _ sign_minus)))|].
    apply printed_step, St.
  - destruct ((a =? 2) && (b =? 1)) eqn:O.
    { apply andb_prop in O as [O1 O2]. apply Z.eqb_eq in O1, O2. subst. constructor. }
    destruct (Z.eqb_spec a 0) as [->|N0].
    { destruct (fmt_parts b) as (s & d & k & v & -> & S & D & ->). constructor; assumption. }
    destruct (fmt_sign_parts b) as (t & d & k & v & -> & S & D & ->).
    destruct (Z.eqb_spec a 1) as [->|N1]; [exact (printed_full "" 1 t d k v (step_sign "" 1 no_sign) S D)|].
    destruct (Z.eqb_spec a (-1)) as [->|N2]; [exact (printed_full "-" (-1) t d k v (step_sign "-" (-1) (some_sign _ _ sign_minus)) S D)|].
    apply printed_full; auto.
Qed.
Theorem affine_text a b : anb_text (affine a b) a b.
Proof.
  destruct (affine_printed a b) as [|s d k v S D|s a S|s a t d k v S T D].
  - apply anb_odd. repeat constructor.
  - constructor; assumption.
  - constructor; [assumption|constructor].
  - apply (anb_full s "n" (t ++ d)); [assumption|constructor|]. exact (offset_some "" t "" d k v space_none T space_none D).
Qed.
Theorem affine_read a b : int32 a -> int32 b -> read_anb (affine a b) = Some (a, b).
Proof.
  intros Ra Rb. destruct (Z.eq_dec b (- 2147483648)) as [E|E]; [|apply read_text; [apply affine_text|assumption..]].
  pose proof (affine_printed a b) as P. destruct P as [|s d k v S D|s a S|s a t d k v S T D]; try discriminate E.
  - assert (Q : parse_nth (s ++ d) = Some (0, k * v, "")); [|unfold read_anb; rewrite Q; reflexivity].
    pose proof (digits_positive _ _ D). unfold parse_nth. destruct S as [|s k Sg]; [lia|].
    pose proof (signed_first _ _ _ _ "" Sg D) as Q. rewrite app_nil in Q. rewrite Q, (number_end _ _ _ _ D).
    destruct (sign_cases _ _ Sg) as [[_ ->]|[_ ->]]; cbn [Z.ltb Z.compare]; rewrite clamp_in by (unfold int32 in *; lia); do 3 f_equal; lia.
  - assert (Q : parse_nth (s ++ "n" ++ t ++ d) = Some (a, k * v, "")); [|unfold read_anb; rewrite Q; reflexivity].
    apply (step_read s a "n" (t ++ d)); [assumption..|constructor|]. exact (tail_offset "" t "" d k v space_none T space_none D Rb (or_introl eq_refl)).
Qed.
(** With a space before the digits, the least [i32] is not read *)
Theorem spaced_least : anb_text "n - 2147483648" 1 (- 2147483648) /\ read_anb "n - 2147483648" = Some (1, - 2147483647).
Proof.
  split; [|reflexivity]. change (anb_text ("" ++ "n" ++ " " ++ "-" ++ " " ++ "2147483648") 1 (-1 * 2147483648)).
  assert (Sp : spaces " ") by (apply space_more; [left; reflexivity|constructor]).
  apply anb_full; [apply step_sign; constructor|constructor|]. apply offset_some; [exact Sp|constructor|exact Sp|].
  pose proof (decimal_digits 2147483648) as D. exact D.
Qed.
Theorem least_refuted : exists s b, anb_text s 1 b /\ int32 b /\ read_anb s <> Some (1, b).
Proof. exists "n - 2147483648", (- 2147483648). destruct spaced_least as [T R]. split; [exact T|]. split; [unfold int32; lia|]. rewrite R. intros E. injection E as E. discriminate E. Qed.
Theorem spaced_example : read_anb "-3N - 7" = Some (-3, -7) /\ anb_text "-3N - 7" (-3) (-7).
Proof.
  split; [reflexivity|]. change (anb_text (("-" ++ "3") ++ "N" ++ " " ++ "-" ++ " " ++ "7") (-1 * 3) (-1 * 7)).
  assert (Sp : spaces " ") by (apply space_more; [left; reflexivity|constructor]).
  apply anb_full; [|constructor|].
  - apply step_number; [constructor; constructor|]. exact (digit_one 3 ltac:(lia)).
  - apply offset_some; [exact Sp|constructor|exact Sp|]. exact (digit_one 7 ltac:(lia)).
Qed.
Theorem affine_example : affine (-2) 5 = "-2n+5" /\ affine 2 1 = "odd" /\ affine 1 (-4) = "n-4" /\ read_anb "n-4" = Some (1, -4).
Proof. repeat split. Qed.
Theorem one_meaning s a b a' b' : anb_text s a b -> anb_text s a' b' ->
  int32 a -> int32 b -> b <> - 2147483648 -> int32 a' -> int32 b' -> b' <> - 2147483648 -> a = a' /\ b = b'.
Proof.
  intros T T' R1 R2 R3 R4 R5 R6. pose proof (read_text _ _ _ T R1 R2 R3) as E. rewrite (read_text _ _ _ T' R4 R5 R6) in E. injection E as -> ->. auto.
Qed.
