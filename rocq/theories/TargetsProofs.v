(** * Proofs about targets *)
From Coq Require Import List Bool String Ascii NArith PeanoNat Lia.
From Verif Require Import TargetsTable TargetsModel TargetsSpec.
Import ListNotations.
Local Open Scope string_scope.
Local Open Scope list_scope.
Local Open Scope N_scope.

(** ** Versions *)
Lemma ten d : d < 10 -> In d [0;1;2;3;4;5;6;7;8;9].
Proof. intros H. assert (C : d = 0 \/ d = 1 \/ d = 2 \/ d = 3 \/ d = 4 \/ d = 5 \/ d = 6 \/ d = 7 \/ d = 8 \/ d = 9) by lia. cbn. intuition. Qed.
Definition dchar (d : N) : ascii := ascii_of_N (48 + d).
Lemma digit_char d : d < 10 -> digit (dchar d) = Some d /\ dchar d <> "."%char /\ dchar d <> "-"%char /\ dchar d <> "+"%char.
Proof.
  intros H. apply ten in H. cbn in H.
  repeat (destruct H as [<- | H]; [split; [vm_compute; reflexivity|split; [vm_compute; discriminate|split; vm_compute; discriminate]]|]). destruct H.
Qed.
Fixpoint free (c : ascii) (s : string) : Prop := match s with EmptyString => True | String x r => x <> c /\ free c r end.
Lemma free_app c s t : free c s -> free c t -> free c (String.append s t).
Proof. induction s as [|x s IH]; cbn; [auto|]. intros [A B] C. split; [exact A|apply IH; assumption]. Qed.
Lemma split_free c s : free c s -> split c s = [s].
Proof.
  induction s as [|x s IH]; [reflexivity|]. intros [A B]. cbn [split]. rewrite (proj2 (Ascii.eqb_neq x c) A), (IH B). reflexivity.
Qed.
Lemma split_app c s t : free c s -> split c (String.append s (String c t)) = s :: split c t.
Proof.
  induction s as [|x s IH]; [cbn [String.append split]; rewrite Ascii.eqb_refl; reflexivity|]. intros [A B].
  cbn [String.append split]. rewrite (proj2 (Ascii.eqb_neq x c) A), (IH B). reflexivity.
Qed.
Lemma digits_app s c a : digits a (String.append s (String c "")) =
  match digits a s with
  | Some n => match digit c with Some d => if n * 10 + d <? 4294967296 then Some (n * 10 + d) else None | None => None end
  | None => None
  end.
Proof.
  revert a; induction s as [|x s IH]; intros a.
  - cbn [String.append digits]. destruct (digit c); [|reflexivity]. cbv zeta. destruct (_ <? _); reflexivity.
  - cbn [String.append digits]. destruct (digit x); [|reflexivity]. cbv zeta. destruct (_ <? _); [apply IH|reflexivity].
Qed.
Lemma numeral_digits s n : numeral s n -> n < 4294967296 -> digits 0 s = Some n.
Proof.
  induction 1 as [d D|s n d _ IH D]; intros B.
  - change (ascii_of_N (48 + d)) with (dchar d). cbn [digits]. rewrite (proj1 (digit_char d D)). cbv zeta.
    replace (0 * 10 + d) with d by lia. rewrite (proj2 (N.ltb_lt _ _) B). reflexivity.
  - change (ascii_of_N (48 + d)) with (dchar d). rewrite digits_app, IH by lia. rewrite (proj1 (digit_char d D)).
    replace (n * 10 + d) with (10 * n + d) by lia. rewrite (proj2 (N.ltb_lt _ _) B). reflexivity.
Qed.
Lemma numeral_free s n : numeral s n -> free "." s /\ free "-" s.
Proof.
  induction 1 as [d D|s n d _ [A B] D]; pose proof (digit_char d D) as (_ & E & F & _).
  - split; (split; [assumption|exact I]).
  - split; apply free_app; try assumption; (split; [assumption|exact I]).
Qed.
Lemma numeral_first s n : numeral s n -> exists c r, s = String c r /\ c <> "+"%char.
Proof.
  induction 1 as [d D|s n d _ (c & r & -> & E) D].
  - exists (dchar d), "". split; [reflexivity|apply (digit_char d D)].
  - exists c. eexists. split; [reflexivity|exact E].
Qed.
Lemma numeral_u32 s n : numeral s n -> n < 4294967296 -> parse_u32 s = Some n.
Proof.
  intros H B. pose proof (numeral_digits s n H B) as D. destruct (numeral_first s n H) as (c & r & -> & E).
  unfold parse_u32. destruct c as [[] [] [] [] [] [] [] []]; try exact D. destruct (E eq_refl).
Qed.
Lemma dotted_free s v : dotted s v -> free "-" s.
Proof.
  destruct 1 as [s a A|s t a b A B|s t u a b c A B C]; repeat match goal with H : numeral _ _ |- _ => apply numeral_free in H; destruct H end; [assumption|..].
  - apply free_app; [assumption|]. split; [discriminate|assumption].
  - apply free_app; [assumption|]. split; [discriminate|]. apply free_app; [assumption|]. split; [discriminate|assumption].
Qed.
Definition pack3 (v : N * N * N) : N := let '(a, b, c) := v in pack a b c.
Lemma dotted_parts s v : dotted s v -> words v ->
  let p := split "." s in nth_part p 0 = Some (fst (fst v)) /\ or_zero (nth_part p 1) = snd (fst v) /\ or_zero (nth_part p 2) = snd v.
Proof.
  destruct 1 as [s a A|s t a b A B|s t u a b c A B C]; intros (W1 & W2 & W3); cbv zeta.
  - rewrite split_free by apply (numeral_free _ _ A). unfold nth_part; cbn [nth_error]. rewrite (numeral_u32 _ _ A W1). repeat split.
  - rewrite split_app by apply (numeral_free _ _ A). rewrite split_free by apply (numeral_free _ _ B). unfold nth_part; cbn [nth_error].
    rewrite (numeral_u32 _ _ A W1), (numeral_u32 _ _ B W2). repeat split.
  - rewrite split_app by apply (numeral_free _ _ A). rewrite split_app by apply (numeral_free _ _ B). rewrite split_free by apply (numeral_free _ _ C).
    unfold nth_part; cbn [nth_error]. rewrite (numeral_u32 _ _ A W1), (numeral_u32 _ _ B W2), (numeral_u32 _ _ C W3). repeat split.
Qed.
Lemma parse_written s v : written s v -> words v -> parse_version s = Some (pack3 v).
Proof.
  intros H W. assert (Q : exists p, hd "" (split "-" s) = p /\ dotted p v).
  { destruct H as [D|(p & q & -> & D)].
    - exists s. rewrite split_free by apply (dotted_free _ _ D). split; [reflexivity|exact D].
    - exists p. rewrite split_app by apply (dotted_free _ _ D). split; [reflexivity|exact D]. }
  destruct Q as (p & E & D). unfold parse_version. rewrite E. cbv zeta.
  destruct (dotted_parts p v D W) as (P0 & P1 & P2). destruct v as [[a b] c]. cbn [fst snd] in *.
  rewrite P0, P1, P2. reflexivity.
Qed.
Lemma land_255 n : N.land n 255 = n mod 256.
Proof. change 255 with (N.ones 8). rewrite N.land_ones. reflexivity. Qed.
Lemma lor_add a b k : b < 2 ^ k -> N.lor (N.shiftl a k) b = a * 2 ^ k + b.
Proof.
  intros H. rewrite N.shiftl_mul_pow2. symmetry. rewrite N.add_nocarry_lxor, N.lxor_lor; [reflexivity| |].
  all: apply N.bits_inj; intros i; rewrite N.land_spec, N.bits_0; destruct (N.lt_ge_cases i k) as [L|L];
    [rewrite N.mul_pow2_bits_low by exact L; reflexivity|].
  all: rewrite andb_comm; replace (N.testbit b i) with false; [reflexivity|symmetry].
  all: destruct (N.eq_dec b 0) as [->|Z]; [apply N.bits_0|apply N.bits_above_log2; apply N.log2_lt_pow2; [lia|]; eapply N.lt_le_trans; [exact H|apply N.pow_le_mono_r; lia]].
Qed.
Lemma pack_value a b c : pack a b c = (a mod 256) * 65536 + (b mod 256) * 256 + c mod 256.
Proof.
  unfold pack. rewrite !land_255.
  assert (A : a mod 256 < 256) by (apply N.mod_lt; discriminate). assert (B : b mod 256 < 256) by (apply N.mod_lt; discriminate).
  assert (C : c mod 256 < 256) by (apply N.mod_lt; discriminate).
  rewrite <- N.lor_assoc. rewrite (lor_add (b mod 256) (c mod 256) 8) by exact C. rewrite (lor_add (a mod 256)).
  - change (2 ^ 16) with 65536. change (2 ^ 8) with 256. lia.
  - change (2 ^ 16) with 65536. change (2 ^ 8) with 256. lia.
Qed.
Lemma version_of_pack a b c : version_of (pack a b c) = (a mod 256, b mod 256, c mod 256).
Proof.
  rewrite pack_value. unfold version_of.
  assert (A : a mod 256 < 256) by (apply N.mod_lt; discriminate). assert (B : b mod 256 < 256) by (apply N.mod_lt; discriminate).
  assert (C : c mod 256 < 256) by (apply N.mod_lt; discriminate).
  set (x := a mod 256) in *. set (y := b mod 256) in *. set (z := c mod 256) in *. clearbody x y z.
  assert (D1 : (x * 65536 + y * 256 + z) / 65536 = x) by (symmetry; apply (N.div_unique _ 65536 x (y * 256 + z)); lia).
  assert (D2 : (x * 65536 + y * 256 + z) / 256 = x * 256 + y) by (symmetry; apply (N.div_unique _ 256 (x * 256 + y) z); lia).
  rewrite D1, D2. f_equal; [f_equal|].
  - symmetry. apply (N.mod_unique _ 256 x); lia.
  - symmetry. apply (N.mod_unique _ 256 (x * 256 + y)); lia.
Qed.
Lemma version_le_of v w : v <= w -> version_le (version_of v) (version_of w).
Proof.
  intros L. unfold version_le, version_of. pose proof (N.div_le_mono v w 65536 ltac:(discriminate) L) as Q.
  destruct (N.eq_dec (v / 65536) (w / 65536)) as [E|NE]; [right; split; [exact E|]|left; lia].
  pose proof (N.div_mod v 256 ltac:(discriminate)) as V. pose proof (N.div_mod w 256 ltac:(discriminate)) as W'.
  pose proof (N.div_mod (v / 256) 256 ltac:(discriminate)) as V2. pose proof (N.div_mod (w / 256) 256 ltac:(discriminate)) as W2.
  rewrite !N.div_div in V2, W2 by discriminate. change (256 * 256) with 65536 in *. rewrite E in V2.
  assert (M1 : v mod 256 < 256) by (apply N.mod_lt; discriminate). assert (M2 : w mod 256 < 256) by (apply N.mod_lt; discriminate).
  destruct (N.lt_ge_cases ((v / 256) mod 256) ((w / 256) mod 256)) as [H|H]; [left; exact H|right].
  assert (Q2 : v / 256 <= w / 256) by (apply N.div_le_mono; [discriminate|exact L]). split; lia.
Qed.
Lemma version_le_trans x y z : version_le x y -> version_le y z -> version_le x z.
Proof. destruct x as [[a b] c], y as [[d e] f], z as [[g h] i]. unfold version_le. intros H J. lia. Qed.
Lemma version_le_mod a b c : version_le (a mod 256, b mod 256, c mod 256) (a, b, c).
Proof.
  unfold version_le. pose proof (N.mod_le a 256 ltac:(discriminate)). pose proof (N.mod_le b 256 ltac:(discriminate)).
  pose proof (N.mod_le c 256 ltac:(discriminate)). lia.
Qed.

(** ** from_distribs *)
Lemma browser_eqb_eq a b : browser_eqb a b = true <-> a = b.
Proof. split; [destruct a, b; try reflexivity; discriminate|intros ->; destruct b; reflexivity]. Qed.
Lemma browser_of_known n b : browser_of n = Some b <-> In (n, b) known_names.
Proof.
  split.
  - unfold browser_of. intros H.
    repeat match type of H with
           | (if String.eqb ?x ?y || String.eqb ?x ?z then _ else _) = _ =>
               let E := fresh in let F := fresh in
               destruct (String.eqb x y) eqn:E; cbn [orb] in H;
               [apply String.eqb_eq in E; subst; injection H as <-; cbn; tauto|];
               destruct (String.eqb x z) eqn:F; [apply String.eqb_eq in F; subst; injection H as <-; cbn; tauto|]
           | (if String.eqb ?x ?y then _ else _) = _ =>
               let E := fresh in destruct (String.eqb x y) eqn:E; [apply String.eqb_eq in E; subst; injection H as <-; cbn; tauto|]
           end. discriminate H.
  - intros H. cbn in H. repeat (destruct H as [[= <- <-]|H]; [reflexivity|]). destruct H.
Qed.
Definition below (bs : browsers) (b : browser) (v : N) : Prop := exists w, bs b = Some w /\ w <= v.
Lemma set_same b o bs : set_browser b o bs b = o.
Proof. unfold set_browser. rewrite (proj2 (browser_eqb_eq b b) eq_refl). reflexivity. Qed.
Lemma set_other b c o bs : b <> c -> set_browser b o bs c = bs c.
Proof. intros H. unfold set_browser. destruct (browser_eqb b c) eqn:E; [apply browser_eqb_eq in E; contradiction|reflexivity]. Qed.
Lemma add_keeps st d b v : below (fst st) b v -> below (fst (add_distrib st d)) b v.
Proof.
  destruct st as [bs any]. cbn [fst]. intros (w & E & L). unfold add_distrib. destruct (browser_of (fst d)) as [b'|]; [|exists w; auto].
  destruct (parse_version (snd d)) as [x|]; [|exists w; auto].
  destruct (browser_eqb b' b) eqn:Q.
  - apply browser_eqb_eq in Q. subst b'. rewrite E. destruct (x <? w) eqn:X; [|exists w; auto]. apply N.ltb_lt in X. exists x. cbn [fst]. rewrite set_same. split; [reflexivity|lia].
  - assert (NE : b' <> b) by (intros ->; rewrite (proj2 (browser_eqb_eq b b) eq_refl) in Q; discriminate Q).
    destruct (bs b') as [y|]; [destruct (x <? y)|]; exists w; cbn [fst]; rewrite ?set_other by exact NE; auto.
Qed.
Lemma add_sets st d b v : browser_of (fst d) = Some b -> parse_version (snd d) = Some v -> below (fst (add_distrib st d)) b v.
Proof.
  intros B P. destruct st as [bs any]. unfold add_distrib. rewrite B, P. destruct (bs b) as [w|] eqn:E.
  - destruct (v <? w) eqn:L; cbn [fst]; [exists v; rewrite set_same; split; [reflexivity|lia]|exists w]. apply N.ltb_ge in L. auto.
  - exists v. cbn [fst]. rewrite set_same. split; [reflexivity|lia].
Qed.
Lemma fold_below l st b v : below (fst st) b v -> below (fst (fold_left add_distrib l st)) b v.
Proof. revert st; induction l as [|d l IH]; intros st H; [exact H|]. cbn [fold_left]. apply IH, add_keeps, H. Qed.
Lemma fold_sets l st d b v : In d l -> browser_of (fst d) = Some b -> parse_version (snd d) = Some v -> below (fst (fold_left add_distrib l st)) b v.
Proof.
  revert st; induction l as [|e l IH]; intros st I B P; [destruct I|]. cbn [fold_left]. destruct I as [->|I].
  - apply fold_below, add_sets; assumption.
  - apply IH; assumption.
Qed.
Definition listed (l : list (string * string)) (b : browser) (v : N) : Prop :=
  exists d, In d l /\ browser_of (fst d) = Some b /\ parse_version (snd d) = Some v.
Lemma fold_listed l m st : (forall b v, fst st b = Some v -> listed m b v /\ snd st = true) ->
  forall b v, fst (fold_left add_distrib l st) b = Some v -> listed (m ++ l) b v /\ snd (fold_left add_distrib l st) = true.
Proof.
  revert m st; induction l as [|d l IH]; intros m st H b v E; [rewrite app_nil_r; apply H, E|].
  cbn [fold_left] in *. replace (m ++ d :: l) with ((m ++ [d]) ++ l) by (rewrite <- app_assoc; reflexivity).
  apply IH; [|exact E]. clear b v E. intros b v E.
  assert (K : listed m b v -> listed (m ++ [d]) b v).
  { intros (e & I & Q). exists e. split; [apply in_or_app; left; exact I|exact Q]. }
  destruct st as [bs any]. unfold add_distrib in *. cbn [fst snd] in H.
  destruct (browser_of (fst d)) as [b'|] eqn:B; [|cbn [fst snd] in *; destruct (H b v E); auto].
  destruct (parse_version (snd d)) as [x|] eqn:P; [|cbn [fst snd] in *; destruct (H b v E); auto].
  assert (N : forall bs', set_browser b' (Some x) bs' b = Some v -> (bs' b = Some v -> listed (m ++ [d]) b v) -> listed (m ++ [d]) b v).
  { intros bs' S K'. destruct (browser_eqb b' b) eqn:Q.
    - apply browser_eqb_eq in Q. subst b'. rewrite set_same in S. injection S as ->. exists d. split; [apply in_or_app; right; left; reflexivity|auto].
    - apply K'. rewrite set_other in S; [exact S|]. intros ->. rewrite (proj2 (browser_eqb_eq b b) eq_refl) in Q. discriminate Q. }
  destruct (bs b') as [w|] eqn:Bw; [destruct (x <? w)|]; cbn [fst snd] in *.
  - split; [|reflexivity]. apply (N bs E). intros E'. apply K, (H b v E').
  - destruct (H b v E); auto.
  - split; [|reflexivity]. apply (N bs E). intros E'. apply K, (H b v E').
Qed.
Theorem distribs_target l name s v b : In (name, s) l -> In (name, b) known_names -> written s v -> words v ->
  exists bs w, from_distribs l = Some bs /\ bs b = Some w /\ version_le (version_of w) v.
Proof.
  intros I K W X. pose proof (parse_written s v W X) as P. apply browser_of_known in K.
  destruct (fold_sets l (no_browsers, false) (name, s) b _ I K P) as (w & E & L).
  destruct (fold_listed l [] (no_browsers, false) ltac:(discriminate) b w E) as [_ A].
  unfold from_distribs. destruct (fold_left add_distrib l (no_browsers, false)) as [bs any]. cbn [fst snd] in *. subst any.
  exists bs, w. split; [reflexivity|]. split; [exact E|]. eapply version_le_trans; [apply version_le_of; exact L|].
  destruct v as [[x y] z]. cbn [pack3]. rewrite version_of_pack. apply version_le_mod.
Qed.
Theorem distribs_listed l bs b w : from_distribs l = Some bs -> bs b = Some w ->
  exists name s, In (name, s) l /\ In (name, b) known_names /\ forall v, written s v -> bytes v -> version_of w = v.
Proof.
  intros F E. unfold from_distribs in F. pose proof (fold_listed l [] (no_browsers, false) ltac:(discriminate) b w) as Q.
  destruct (fold_left add_distrib l (no_browsers, false)) as [bs' any]. cbn [fst snd] in Q. destruct any; [|discriminate F]. injection F as ->.
  destruct (Q E) as [(d & I & B & P) _]. destruct d as [name s]. cbn [fst snd] in *. exists name, s. split; [exact I|]. split; [apply browser_of_known, B|].
  intros v W X. assert (X' : words v) by (destruct v as [[a m] c]; cbn in *; lia).
  rewrite (parse_written s v W X') in P. injection P as <-. destruct v as [[a m] c]. cbn [pack3]. rewrite version_of_pack.
  cbn in X. rewrite !N.mod_small by tauto. reflexivity.
Qed.
Theorem distribs_none l : from_distribs l = None -> forall name s v b, In (name, s) l -> In (name, b) known_names -> written s v -> words v -> False.
Proof. intros F name s v b I K W X. destruct (distribs_target l name s v b I K W X) as (bs & w & E & _). congruence. Qed.

(** ** Features *)
Lemma all_flags_in f : In f all_flags.
Proof. destruct f; cbn; tauto. Qed.
Lemma contains_iff a b : contains a b = true <-> forall f, b f = true -> a f = true.
Proof.
  unfold contains. rewrite forallb_forall. split.
  - intros H f B. specialize (H f (all_flags_in f)). rewrite B in H. exact H.
  - intros H f _. destruct (b f) eqn:B; [exact (H f B)|reflexivity].
Qed.
Lemma flag_eqb_eq a b : flag_eqb a b = true <-> a = b.
Proof. unfold flag_eqb. destruct (flag_eq_dec a b); split; intros; try discriminate; auto; contradiction. Qed.
Lemma only_one f x : only [f] x = true <-> x = f.
Proof. unfold only. cbn [existsb]. rewrite orb_false_r. apply flag_eqb_eq. Qed.
Lemma contains_one a f : contains a (only [f]) = a f.
Proof.
  destruct (a f) eqn:E.
  - apply contains_iff. intros x H. apply only_one in H. subst. exact E.
  - destruct (contains a (only [f])) eqn:C; [|reflexivity]. pose proof (proj1 (contains_iff _ _) C f (proj2 (only_one f f) eq_refl)). congruence.
Qed.
Lemma compatible_iff row bs : is_compatible row bs = true <-> forall b v, bs b = Some v -> has_row row b v.
Proof.
  unfold is_compatible. rewrite forallb_forall. split.
  - intros H b v E o I. specialize (H (b, o) I). cbn [fst snd] in H. rewrite E in H. destruct o as [m|]; [|discriminate H].
    exists m. split; [reflexivity|]. apply negb_true_iff, N.ltb_ge in H. exact H.
  - intros H [b o] I. cbn [fst snd]. destruct (bs b) as [v|] eqn:E; [|reflexivity]. destruct (H b v E o I) as (m & -> & L).
    apply negb_true_iff, N.ltb_ge. exact L.
Qed.
Lemma has_row_dec row b v : has_row row b v \/ exists o, In (b, o) row /\ match o with Some m => v < m | None => True end.
Proof.
  unfold has_row. induction row as [|[b' o'] row IH]; [left; intros o []|]. destruct IH as [H|(o & I & Q)].
  - destruct (browser_eqb b' b) eqn:E.
    + apply browser_eqb_eq in E. subst b'. destruct o' as [m|].
      * destruct (N.le_gt_cases m v) as [L|L]; [left|right; exists (Some m); split; [left; reflexivity|exact L]].
        intros o [[= <-]|I]; [exists m; auto|exact (H o I)].
      * right. exists None. split; [left; reflexivity|exact I].
    + left. intros o [[= -> _]|I]; [rewrite (proj2 (browser_eqb_eq b b) eq_refl) in E; discriminate E|exact (H o I)].
  - right. exists o. split; [right; exact I|exact Q].
Qed.
Lemma incompatible_iff row bs : is_compatible row bs = false <-> exists b v, bs b = Some v /\ ~ has_row row b v.
Proof.
  split.
  - intros H. unfold is_compatible in H.
    assert (E : existsb (fun r => negb (match bs (fst r), snd r with None, _ => true | Some v, Some m => negb (v <? m) | Some _, None => false end)) row = true).
    { clear -H. induction row as [|r row IH]; [discriminate H|]. cbn [forallb existsb] in *. apply andb_false_iff in H. destruct H as [->|H]; [reflexivity|]. rewrite (IH H). apply orb_true_r. }
    apply existsb_exists in E. destruct E as ([b o] & I & E). cbn [fst snd] in E. apply negb_true_iff in E.
    destruct (bs b) as [v|] eqn:B; [|discriminate E]. exists b, v. split; [exact B|]. intros K. destruct (K o I) as (m & -> & L).
    apply negb_false_iff, N.ltb_lt in E. lia.
  - intros (b & v & E & K). destruct (is_compatible row bs) eqn:C; [|reflexivity]. destruct (K (proj1 (compatible_iff row bs) C b v E)).
Qed.
Theorem compile_iff t row f : t_include t f = false \/ t_exclude t f = false ->
  (should_compile t row (only [f]) = true <->
   t_exclude t f = false /\ (t_include t f = true \/ exists b v, targets_browser t b v /\ ~ has_row row b v)).
Proof.
  intros D. unfold should_compile. rewrite !contains_one. unfold t_compatible, targets_browser. split.
  - intros H. apply orb_true_iff in H. destruct H as [H|H].
    + destruct D as [D|D]; [congruence|]. auto.
    + apply andb_true_iff in H. destruct H as [E C]. apply negb_true_iff in E, C. split; [exact E|right].
      destruct (t_browsers t) as [bs|]; [|discriminate C]. apply incompatible_iff in C. destruct C as (b & v & B & K). exists b, v. split; [exists bs; auto|exact K].
  - intros (E & [I|(b & v & (bs & B & V) & K)]); [rewrite I; reflexivity|]. rewrite E, B. cbn [negb andb].
    rewrite (proj2 (incompatible_iff row bs)); [apply orb_true_r|]. exists b, v. auto.
Qed.
Lemma has_row_mono row b v w : has_row row b v -> v <= w -> has_row row b w.
Proof. intros H L o I. destruct (H o I) as (m & E & M). exists m. split; [exact E|lia]. Qed.
Theorem compile_mono t t' row f : wider (t_browsers t) (t_browsers t') ->
  (forall x, t_include t x = true -> t_include t' x = true) -> (forall x, t_exclude t' x = true -> t_exclude t x = true) ->
  should_compile t row (only [f]) = true -> should_compile t' row (only [f]) = true.
Proof.
  intros W I E H. unfold should_compile in *. rewrite !contains_one in *. apply orb_true_iff in H. destruct H as [H|H]; [rewrite (I f H); reflexivity|].
  apply andb_true_iff in H. destruct H as [X C]. apply negb_true_iff in X, C.
  destruct (t_exclude t' f) eqn:X'; [rewrite (E f X') in X; discriminate X|]. unfold t_compatible in *.
  destruct (t_browsers t) as [bs|]; [|discriminate C]. destruct (t_browsers t') as [bs'|]; [|destruct W]. apply incompatible_iff in C.
  destruct C as (b & v & B & K). destruct (W b v B) as (w & B' & L). rewrite (proj2 (incompatible_iff row bs')); [apply orb_true_r|].
  exists b, w. split; [exact B'|]. intros K'. apply K. exact (has_row_mono row b w v K' L).
Qed.
Theorem partially_iff row bs : is_partially_compatible row bs = true <-> exists b v, bs b = Some v /\ has_row row b v.
Proof.
  unfold is_partially_compatible. rewrite existsb_exists. split.
  - intros (b & _ & H). destruct (bs b) as [v|] eqn:E; [|discriminate H]. exists b, v. split; [exact E|].
    apply (proj1 (compatible_iff _ _) H b v). apply set_same.
  - intros (b & v & E & K). exists b. split; [destruct b; cbn; tauto|]. rewrite E. apply compatible_iff. intros b' v' E'.
    destruct (browser_eqb b b') eqn:Q; [apply browser_eqb_eq in Q; subst b'; rewrite set_same in E'; injection E' as <-; exact K|].
    rewrite set_other in E'; [discriminate E'|]. intros ->. rewrite (proj2 (browser_eqb_eq b' b') eq_refl) in Q. discriminate Q.
Qed.

(** ** Prefixes *)
Lemma prefix_eqb_eq a b : prefix_eqb a b = true <-> a = b.
Proof. split; [destruct a, b; try reflexivity; discriminate|intros ->; destruct b; reflexivity]. Qed.
Lemma in_range_iff r v : in_range r v = true <-> within r v.
Proof.
  unfold in_range, within. rewrite andb_true_iff. destruct r as [[lo|] [hi|]]; cbn [fst snd]; rewrite ?N.leb_le; split; intros [A B]; split; try reflexivity;
    try (intros x [= <-]; assumption); try (intros x [=]); try (apply A; reflexivity); try (apply B; reflexivity); exact I.
Qed.
Lemma prefixes_fold row bs p q :
  fold_left (fun p e => match bs (fst (fst e)) with
                        | Some v => if in_range (snd (fst e)) v then fun x => prefix_eqb (snd e) x || p x else p
                        | None => p
                        end) row p q = true
  <-> p q = true \/ exists b v, bs b = Some v /\ needs row b v q.
Proof.
  revert p; induction row as [|[[b r] x] row IH]; intros p; cbn [fold_left fst snd].
  - split; [auto|]. intros [H|(b & v & _ & r & [] & _)]. exact H.
  - rewrite IH. assert (T : forall b' v, needs row b' v q -> needs ((b, r, x) :: row) b' v q).
    { intros b' v (r' & I & Q). exists r'. split; [right; exact I|exact Q]. }
    destruct (bs b) as [v|] eqn:B; [destruct (in_range r v) eqn:R|].
    + rewrite orb_true_iff, prefix_eqb_eq. split.
      * intros [[->|H]|(b' & v' & E & Q)]; [right|left; exact H|right; exists b', v'; auto].
        exists b, v. split; [exact B|]. exists r. split; [left; reflexivity|apply in_range_iff, R].
      * intros [H|(b' & v' & E & r' & [[= -> -> ->]|I] & Q)]; [auto|left; left; reflexivity|right; exists b', v'; split; [exact E|exists r'; auto]].
    + split.
      * intros [H|(b' & v' & E & Q)]; [left; exact H|right; exists b', v'; auto].
      * intros [H|(b' & v' & E & r' & [[= -> -> ->]|I] & Q)]; [auto| |right; exists b', v'; split; [exact E|exists r'; auto]].
        exfalso. rewrite B in E. injection E as ->. apply in_range_iff in Q. congruence.
    + split.
      * intros [H|(b' & v' & E & Q)]; [left; exact H|right; exists b', v'; auto].
      * intros [H|(b' & v' & E & r' & [[= -> -> ->]|I] & Q)]; [auto|congruence|right; exists b', v'; split; [exact E|exists r'; auto]].
Qed.
Theorem prefixes_iff row bs p : prefixes_for row bs p = true <-> p = NoPrefix \/ exists b v, bs b = Some v /\ needs row b v p.
Proof.
  unfold prefixes_for. rewrite prefixes_fold, prefix_eqb_eq.
  split; (intros [H|H]; [left; congruence|right; exact H]).
Qed.
Theorem prefixes_newer row bs b v w p : bs b = Some v -> v <= w -> needs row b w p ->
  (forall r lo, In (b, r, p) row -> fst r = Some lo -> lo <= v) -> prefixes_for row bs p = true.
Proof.
  intros E L (r & I & A & B) H. apply prefixes_iff. right. exists b, v. split; [exact E|]. exists r. split; [exact I|].
  split; [intros lo F; exact (H r lo I F)|intros hi F; specialize (B hi F); lia].
Qed.

(** ** Colours *)
Definition row_unique (name : string) : bool :=
  Nat.eqb 1 (List.length (filter (fun r => existsb (String.eqb name) (fst r)) compat_table)).
Lemma find_unique {A} (f : A -> bool) l x : find f l = Some x -> List.length (filter f l) = 1%nat -> forall y, In y l -> f y = true -> y = x.
Proof.
  induction l as [|a l IH]; [discriminate|]. cbn [find filter]. destruct (f a) eqn:E.
  - intros [= <-] L y [->|I] F; [reflexivity|]. cbn in L. injection L as L. apply length_zero_iff_nil in L.
    assert (In y (filter f l)) by (apply filter_In; auto). rewrite L in H. destruct H.
  - intros F L y [->|I] Y; [congruence|]. exact (IH F L y I Y).
Qed.
Lemma row_feature name b v : row_unique name = true -> (has_row (row_of compat_table name) b v <-> has_feature name b v).
Proof.
  unfold row_unique, has_feature, row_of. intros U. apply Nat.eqb_eq in U. symmetry in U.
  destruct (find (fun r => existsb (String.eqb name) (fst r)) compat_table) as [r|] eqn:F.
  - assert (N : In name (fst r)).
    { apply find_some in F. destruct F as [_ F]. apply existsb_exists in F. destruct F as (x & I & E). apply String.eqb_eq in E. subst x. exact I. }
    split.
    + intros H r' I J. assert (r' = r) as ->; [|exact H]. apply (find_unique _ _ _ F U r' I). apply existsb_exists. exists name. split; [exact J|apply String.eqb_refl].
    + intros H. apply H; [apply find_some in F; apply F|exact N].
  - exfalso. destruct (filter (fun r => existsb (String.eqb name) (fst r)) compat_table) as [|r q] eqn:Q; [discriminate U|].
    assert (I : In r (filter (fun r => existsb (String.eqb name) (fst r)) compat_table)) by (rewrite Q; left; reflexivity).
    apply filter_In in I. destruct I as [I E]. pose proof (find_none _ _ F r I). cbv beta in H. congruence.
Qed.
Lemma compile_has t name f : row_unique name = true -> t_exclude t f = false -> compile t name f = false ->
  forall b v w, targets_browser t b v -> v <= w -> has_feature name b w.
Proof.
  intros U X C b v w (bs & B & V) L. apply (row_feature name b w U). unfold compile, should_compile in C. rewrite !contains_one, X in C.
  apply orb_false_iff in C. destruct C as [_ C]. cbn [negb andb] in C. apply negb_false_iff in C. unfold t_compatible in C. rewrite B in C.
  apply has_row_mono with v; [|exact L]. exact (proj1 (compatible_iff _ _) C b v V).
Qed.
(** Every version with lab() has color() *)
Lemma lab_color b v : has_feature "LabColors" b v -> has_feature "ColorFunction" b v.
Proof.
  intros H. apply (row_feature "ColorFunction" b v ltac:(vm_compute; reflexivity)).
  apply (row_feature "LabColors" b v ltac:(vm_compute; reflexivity)) in H.
  intros o I.
  assert (Q : forallb (fun r => existsb (fun q => browser_eqb (fst q) (fst r) && match snd q, snd r with Some x, Some y => y <=? x | None, _ => true | Some _, None => false end)
                (row_of compat_table "LabColors")) (row_of compat_table "ColorFunction") = true) by (vm_compute; reflexivity).
  pose proof (proj1 (forallb_forall _ _) Q _ I) as E. apply existsb_exists in E. destruct E as ([b' o'] & J & E). cbn [fst snd] in E.
  apply andb_true_iff in E. destruct E as [B E]. apply browser_eqb_eq in B. subst b'. destruct (H o' J) as (m & -> & L).
  destruct o as [y|]; [|discriminate E]. apply N.leb_le in E. exists y. split; [reflexivity|lia].
Qed.

Section Colours.
Variable t : targets.
Hypothesis no_exclude : forall f, In f [LabColors; OklabColors; P3Colors; ColorFunction] -> t_exclude t f = false.
Definition native (c : color) : Prop := forall b v w, targets_browser t b v -> v <= w -> understands b w c.
Definition co := compile t "OklabColors" OklabColors.
Definition cl := compile t "LabColors" LabColors.
Definition cp := compile t "P3Colors" P3Colors.
Definition cf := compile t "ColorFunction" ColorFunction.
Lemma native_lab : cl = false -> native Lab.
Proof. intros C b v w T L. cbn. exact (compile_has t "LabColors" LabColors ltac:(vm_compute; reflexivity) (no_exclude LabColors ltac:(cbn; tauto)) C b v w T L). Qed.
Lemma native_oklab : co = false -> native Oklab.
Proof. intros C b v w T L. cbn. exact (compile_has t "OklabColors" OklabColors ltac:(vm_compute; reflexivity) (no_exclude OklabColors ltac:(cbn; tauto)) C b v w T L). Qed.
Lemma native_p3 : cp = false -> native P3.
Proof. intros C b v w T L. cbn. exact (compile_has t "P3Colors" P3Colors ltac:(vm_compute; reflexivity) (no_exclude P3Colors ltac:(cbn; tauto)) C b v w T L). Qed.
Lemma native_color : cf = false \/ cl = false -> native Predefined.
Proof.
  intros [C|C] b v w T L; cbn.
  - exact (compile_has t "ColorFunction" ColorFunction ltac:(vm_compute; reflexivity) (no_exclude ColorFunction ltac:(cbn; tauto)) C b v w T L).
  - apply lab_color. exact (native_lab C b v w T L).
Qed.
Lemma native_rgb : native Rgb. Proof. intros b v w _ _. exact I. Qed.
Definition empty_kinds (k : kinds) : Prop := k_rgb k = false /\ k_p3 k = false /\ k_lab k = false /\ k_oklab k = false.
Definition good (c : color) (k : kinds) : Prop :=
  (k_rgb k = true -> k_p3 k || k_lab k || k_oklab k = true)
  /\ (k_rgb k = false ->
      (empty_kinds k /\ native c)
      \/ (if cl then cp = false /\ k_p3 k = true /\ k_lab k || k_oklab k = true
          else k_p3 k = false /\ k_lab k = true /\ (k_oklab k = false -> native c))).
Lemma possible_good c : good c (possible_fallbacks t c).
Proof.
  induction c; cbn [possible_fallbacks].
  - split; [discriminate|]. intros _. left. split; [repeat split|intros b v w _ _; exact I].
  - split; [discriminate|]. intros _. left. split; [repeat split|exact native_rgb].
  - fold cl. destruct cl eqn:E.
    + unfold reduce. fold cl co cp. rewrite E. destruct (partially t "LabColors"), cp eqn:F, (partially t "P3Colors");
        cbn; (split; [try reflexivity; discriminate|try discriminate]); intros _; right; rewrite E; auto.
    + split; [discriminate|]. intros _. left. split; [repeat split|exact (native_lab E)].
  - fold co. destruct co eqn:G.
    + unfold reduce. fold cl co cp. rewrite G. destruct cl eqn:E, (partially t "LabColors"), cp eqn:F, (partially t "P3Colors");
        cbn; (split; [try reflexivity; discriminate|try discriminate]); intros _; right; rewrite E; auto; repeat split; discriminate.
    + split; [discriminate|]. intros _. left. split; [repeat split|exact (native_oklab G)].
  - fold cp cf. destruct cp eqn:F.
    + unfold reduce. fold cl co cp. rewrite F. destruct (partially t "LabColors"), (partially t "P3Colors");
        cbn; (split; [try reflexivity; discriminate|try discriminate]).
    + destruct cf eqn:H.
      * unfold reduce. fold cl co cp. rewrite F. destruct cl eqn:E, (partially t "LabColors"), (partially t "P3Colors");
          cbn; (split; [try reflexivity; discriminate|try discriminate]); intros _; right; rewrite E; auto; repeat split; intros _; exact (native_p3 F).
      * split; [discriminate|]. intros _. left. split; [repeat split|exact (native_p3 F)].
  - fold cf. destruct cf eqn:H.
    + unfold reduce. fold cl co cp. destruct cl eqn:E, (partially t "LabColors"), cp eqn:F, (partially t "P3Colors");
        cbn; (split; [try reflexivity; discriminate|try discriminate]); intros _; right; rewrite E; auto; repeat split; intros _; exact (native_color (or_intror E)).
    + split; [discriminate|]. intros _. left. split; [repeat split|exact (native_color (or_introl H))].
  - destruct IHc1 as [A1 B1], IHc2 as [A2 B2]. revert A1 B1 A2 B2. generalize (possible_fallbacks t c1) (possible_fallbacks t c2).
    intros [r1 p1 l1 o1] [r2 p2 l2 o2]. cbn [kinds_or k_rgb k_p3 k_lab k_oklab]. intros A1 B1 A2 B2.
    assert (NN : native c1 -> native c2 -> native (LightDarkColor c1 c2)).
    { intros N1 N2 b v w T L. split; [exact (N1 b v w T L)|exact (N2 b v w T L)]. }
    unfold good, kinds_or, empty_kinds in *. cbn [k_rgb k_p3 k_lab k_oklab] in *.
    split.
    { destruct r1; [intros _; specialize (A1 eq_refl); destruct p1, p2, l1, l2, o1; try reflexivity; try discriminate A1; reflexivity|].
      cbn [orb]. intros ->. specialize (A2 eq_refl). destruct p1, p2, l1, l2, o1; try reflexivity; exact A2. }
    intros R. apply orb_false_iff in R. destruct R as [-> ->]. specialize (B1 eq_refl). specialize (B2 eq_refl).
    destruct B1 as [[(_ & -> & -> & ->) N1]|B1], B2 as [[(_ & -> & -> & ->) N2]|B2].
    + left. split; [repeat split|exact (NN N1 N2)].
    + right. cbn [orb]. destruct cl; [exact B2|]. destruct B2 as (P & L & O2). split; [exact P|]. split; [exact L|]. intros Z. exact (NN N1 (O2 Z)).
    + right. rewrite !orb_false_r. destruct cl; [exact B1|]. destruct B1 as (P & L & O1). split; [exact P|]. split; [exact L|]. intros Z. exact (NN (O1 Z) N2).
    + right. destruct cl.
      * destruct B1 as (C & -> & D1), B2 as (_ & -> & D2). split; [exact C|]. split; [reflexivity|]. destruct l1, l2, o1; try reflexivity; discriminate D1.
      * destruct B1 as (-> & -> & O1), B2 as (-> & -> & O2). split; [reflexivity|]. split; [reflexivity|]. intros Z. apply orb_false_iff in Z. destruct Z as [Z1 Z2]. exact (NN (O1 Z1) (O2 Z2)).
Qed.
Lemma convert_native to c d : convert to c = Some d -> native to -> native d.
Proof.
  intros E N. revert d E. induction c; intros e E; cbn in E; try (injection E as <-; exact N); [discriminate E|].
  destruct (convert to c1) as [x|]; [|discriminate E]. destruct (convert to c2) as [y|]; [|discriminate E]. injection E as <-.
  intros b v w T L. split; [exact (IHc1 x eq_refl b v w T L)|exact (IHc2 y eq_refl b v w T L)].
Qed.
Lemma convert_some to c : no_keyword c -> exists d, convert to c = Some d.
Proof.
  induction c; cbn; intros H; try (eexists; reflexivity); [destruct H|]. destruct H as [A B]. destruct (IHc1 A) as (x & ->), (IHc2 B) as (y & ->). eexists. reflexivity.
Qed.
Theorem fallbacks_understood c : no_keyword c ->
  exists l c', get_fallbacks t c = Some (l, c') /\ exists d, In d (l ++ [c']) /\ native d.
Proof.
  intros K. destruct (possible_good c) as [A B]. unfold get_fallbacks, necessary_fallbacks.
  destruct (convert_some Rgb c K) as (r & R). destruct (convert_some P3 c K) as (p & P). destruct (convert_some Lab c K) as (b & L).
  rewrite R, P, L. cbn [option_map]. destruct (possible_fallbacks t c) as [kr kp kl ko]. cbn [k_rgb k_p3 k_lab k_oklab] in A, B.
  destruct kr.
  - specialize (A eq_refl).
    destruct kp, kl, ko; try discriminate A; cbn; (eexists _, _; split; [reflexivity|]); exists r; (split; [left; reflexivity|exact (convert_native Rgb c r R native_rgb)]).
  - specialize (B eq_refl). destruct B as [[(_ & Z1 & Z2 & Z3) N]|B]; cbn [k_rgb k_p3 k_lab k_oklab] in *.
    + subst. cbn. eexists _, _. split; [reflexivity|]. exists c. split; [left; reflexivity|exact N].
    + destruct cl eqn:E.
      * destruct B as (C & -> & D). destruct kl, ko; try discriminate D; cbn; (eexists _, _; split; [reflexivity|]); exists p;
          (split; [left; reflexivity|exact (convert_native P3 c p P (native_p3 C))]).
      * destruct B as (-> & -> & O'). destruct ko; cbn; (eexists _, _; split; [reflexivity|]).
        -- exists b. split; [left; reflexivity|exact (convert_native Lab c b L (native_lab E))].
        -- exists c. split; [left; reflexivity|exact (O' eq_refl)].
Qed.
End Colours.

(** ** Scopes *)
Lemma is_empty_iff a : is_empty a = true <-> forall f, a f = false.
Proof.
  unfold is_empty. rewrite negb_true_iff. split.
  - intros H f. destruct (a f) eqn:E; [|reflexivity]. assert (X : existsb a all_flags = true) by (apply existsb_exists; exists f; split; [apply all_flags_in|exact E]). congruence.
  - intros H. destruct (existsb a all_flags) eqn:E; [|reflexivity]. apply existsb_exists in E. destruct E as (f & _ & E). rewrite H in E. discriminate E.
Qed.
Lemma same_refl a : same_targets a a. Proof. repeat split. Qed.
Lemma same_trans a b c : same_targets a b -> same_targets b c -> same_targets a c.
Proof.
  intros (A1 & A2 & A3) (B1 & B2 & B3). split; [congruence|]. split; intros f; [rewrite A2; apply B2|rewrite A3; apply B3].
Qed.
Lemma same_sym a b : same_targets a b -> same_targets b a.
Proof. intros (A1 & A2 & A3). split; [congruence|]. split; intros f; symmetry; auto. Qed.
Lemma inside_same t around u u' : inside t around u -> same_targets u' u -> inside t around u'.
Proof.
  intros (A & B & C) (D & E & F). split; [congruence|]. split; intros f; [rewrite E; apply B|rewrite F; apply C].
Qed.
Definition visits := fix go (l : list rule) (s : scope) : scope * list seen :=
  match l with
  | [] => (s, [])
  | x :: xs => let (s1, o1) := visit x s in let (s2, o2) := go xs s1 in (s2, o1 ++ o2)
  end.
Definition good_visit (r : rule) : Prop := forall t around s,
  inside t around (current s) -> same_targets (handler s) (current s) ->
  let (s', o) := visit r s in
  stack s' = stack s /\ same_targets (current s') (current s) /\ same_targets (handler s') (current s') /\ Forall2 (saw t) o (places around r).
Lemma visits_good l : Forall good_visit l -> forall t around s,
  inside t around (current s) -> same_targets (handler s) (current s) ->
  let (s', o) := visits l s in
  stack s' = stack s /\ same_targets (current s') (current s) /\ same_targets (handler s') (current s') /\ Forall2 (saw t) o (flat_map (places around) l).
Proof.
  induction 1 as [|r l G _ IH]; intros t around s I H; cbn [visits flat_map].
  - split; [reflexivity|]. split; [apply same_refl|]. split; [exact H|constructor].
  - specialize (G t around s I H). destruct (visit r s) as [s1 o1]. destruct G as (A & B & C & D).
    specialize (IH t around s1 (inside_same _ _ _ _ I B) C). fold visits. destruct (visits l s1) as [s2 o2]. destruct IH as (E & F & K & M).
    split; [congruence|]. split; [eapply same_trans; [exact F|exact B]|]. split; [exact K|]. apply Forall2_app; assumption.
Qed.
Lemma enter_inside t around c s : inside t around (current s) ->
  let (ins, s1) := enter (supported_features c) s in
  inside t (c :: around) (current s1) /\ handler s1 = handler s
  /\ (if ins then exists new, stack s1 = new :: stack s /\ (forall f, new f = true -> t_exclude (current s) f = false)
                   /\ (forall f, t_exclude (current s1) f = t_exclude (current s) f || new f)
                   /\ t_browsers (current s1) = t_browsers (current s) /\ t_include (current s1) = t_include (current s)
      else s1 = s).
Proof.
  intros (A & B & C). unfold enter. destruct (is_empty (supported_features c) || contains (t_exclude (current s)) (supported_features c)) eqn:E.
  - split; [|split; reflexivity]. split; [exact A|]. split; [exact B|]. intros f. cbn [existsb]. rewrite C.
    destruct (supported_features c f) eqn:F; [|destruct (t_exclude t f); reflexivity].
    apply orb_true_iff in E. destruct E as [E|E].
    + rewrite (proj1 (is_empty_iff _) E f) in F. discriminate F.
    + pose proof (proj1 (contains_iff _ _) E f F) as X. rewrite C in X. rewrite X. destruct (t_exclude t f); reflexivity.
  - cbn [current handler stack]. split; [|split; [reflexivity|]].
    + split; [exact A|]. split; [exact B|]. intros f. cbn [exclude_with t_exclude existsb]. unfold union, minus. rewrite C.
      destruct (t_exclude t f), (supported_features c f), (existsb (fun c => supported_features c f) around); reflexivity.
    + eexists. split; [reflexivity|]. split; [|split; [reflexivity|split; reflexivity]].
      intros f F. unfold minus in F. apply andb_true_iff in F. destruct F as [_ F]. apply negb_true_iff in F. exact F.
Qed.
Lemma visit_good : forall r, good_visit r.
Proof.
  fix F 1. intros [c l|l|n] t around s I H.
  - cbn [visit places]. fold visits. pose proof (enter_inside t around c s I) as E. destruct (enter (supported_features c) s) as [ins s1]. destruct E as (E1 & E2 & E3).
    assert (G : Forall good_visit l) by (induction l; constructor; [apply F|assumption]).
    destruct ins.
    + destruct E3 as (new & S1 & N1 & X1 & T1 & T2).
      pose proof (visits_good l G t (c :: around) (Scope (stack s1) (current s1) (current s1)) E1 (same_refl _)) as V. cbn [current stack handler] in V.
      destruct (visits l (Scope (stack s1) (current s1) (current s1))) as [s3 o]. destruct V as (V1 & (V2 & V3 & V4) & V5 & V6). unfold exit_scope. rewrite V1, S1. cbn [stack current handler].
      split; [reflexivity|]. split; [|split; [apply same_refl|exact V6]]. split; [cbn; congruence|]. split; intros f; cbn [exclude_with t_include t_exclude].
      * rewrite V3, T2. reflexivity.
      * unfold minus. rewrite V4, X1. destruct (new f) eqn:Q; [rewrite (N1 f Q); reflexivity|]. rewrite orb_false_r. apply andb_true_r.
    + subst s1. pose proof (visits_good l G t (c :: around) s E1 H) as V. destruct (visits l s) as [s3 o]. exact V.
  - cbn [visit places]. fold visits. assert (G : Forall good_visit l) by (induction l; constructor; [apply F|assumption]). exact (visits_good l G t around s I H).
  - cbn [visit places]. split; [reflexivity|]. split; [apply same_refl|]. split; [exact H|]. constructor; [|constructor]. split; [reflexivity|]. split; [exact I|exact H].
Qed.
Theorem scopes t r : let (s, o) := visit r (Scope [] t t) in
  stack s = [] /\ same_targets (current s) t /\ same_targets (handler s) t /\ Forall2 (saw t) o (places [] r).
Proof.
  pose proof (visit_good r t [] (Scope [] t t)) as H. cbn [current handler stack] in H.
  assert (I : inside t [] t) by (split; [reflexivity|]; split; [reflexivity|]; intros f; cbn; rewrite orb_false_r; reflexivity).
  specialize (H I (same_refl t)). destruct (visit r (Scope [] t t)) as [s o]. destruct H as (A & B & C & D).
  split; [exact A|]. split; [exact B|]. split; [eapply same_trans; eassumption|exact D].
Qed.

(** ** The features of a condition *)
Lemma unions_in l f : unions l f = true <-> exists x, In x l /\ x f = true.
Proof.
  induction l as [|a l IH]; cbn; [split; [discriminate|intros (x & [] & _)]|]. unfold union at 1. rewrite orb_true_iff, IH. split.
  - intros [H|(x & I & H)]; [exists a; auto|exists x; auto].
  - intros (x & [->|I] & H); [auto|right; exists x; auto].
Qed.
Lemma only_in l f : only l f = true <-> In f l.
Proof.
  unfold only. rewrite existsb_exists. split; [intros (x & I & E); apply flag_eqb_eq in E; subst; exact I|intros I; exists f; split; [exact I|apply flag_eqb_eq; reflexivity]].
Qed.
Lemma color_features_need c f : color_features c f = true -> color_needs c f.
Proof.
  induction c; cbn [color_features]; try (intros H; apply only_in in H; cbn in H; intuition (subst; constructor)); try discriminate.
  unfold union. rewrite !orb_true_iff. intros [H|[H|H]].
  - apply only_in in H. destruct H as [<-|[]]. constructor.
  - apply need_light, IHc1, H.
  - apply need_dark, IHc2, H.
Qed.
Lemma token_features_need : forall t f, has_var t = false -> token_features t f = true -> token_needs t f.
Proof.
  fix F 1. intros [c| | | l d |l|o|] f V H; cbn [has_var token_features] in *; try discriminate V; try discriminate H.
  - constructor. apply color_features_need, H.
  - apply only_in in H. destruct H as [<-|[]]. constructor.
  - apply unions_in in H. destruct H as (x & I & H). induction l as [|t l IH]; [destruct I|]. cbn [existsb] in V. apply orb_false_iff in V. destruct V as [V1 V2].
    cbn [map] in I. destruct I as [<-|I].
    + apply needs_function with t; [left; reflexivity|]. exact (F t f V1 H).
    + specialize (IH V2 I). inversion IH as [| |l' t' f' J K]; subst. apply needs_function with t'; [right; exact J|exact K].
Qed.
Theorem supported_holds u : honest u -> forall c, var_free c -> holds u c = true -> forall f, supported_features c f = true -> has u f = true.
Proof.
  intros Hu. assert (G : forall c fs, var_free c -> holds u c = true -> supported_internal c = Some fs -> forall f, fs f = true -> has u f = true).
  { fix F 1. intros [c|l|l|custom p [v|]|n] fs V H E f Q; cbn [supported_internal holds] in *; try discriminate E.
    - revert fs E Q. induction l as [|c l IH]; intros fs E Q; [injection E as <-; discriminate Q|]. destruct V as [V1 V2]. cbn [forallb] in H. apply andb_true_iff in H. destruct H as [H1 H2].
      destruct (supported_internal c) as [a|] eqn:A; [|discriminate E].
      destruct ((fix all (l : list cond) : option features := match l with [] => Some none | x :: r => match supported_internal x, all r with Some a, Some b => Some (union a b) | _, _ => None end end) l) as [b|] eqn:B; [|discriminate E].
      injection E as <-. unfold union in Q. apply orb_true_iff in Q. destruct Q as [Q|Q]; [exact (F c a V1 H1 A f Q)|exact (IH V2 H2 b eq_refl Q)].
    - destruct V as [-> V]. rewrite V, andb_false_r in H. cbn [orb] in H. injection E as <-. apply unions_in in Q. destruct Q as (x & I & Q).
      apply in_map_iff in I. destruct I as (t & <- & I). apply (Hu p v H V t f I). apply token_features_need; [|exact Q].
      destruct (has_var t) eqn:T; [|reflexivity]. assert (existsb has_var v = true) by (apply existsb_exists; exists t; auto). congruence.
    - injection E as <-. discriminate Q.
    - injection E as <-. discriminate Q. }
  intros c V H f Q. unfold supported_features in Q. destruct (supported_internal c) as [fs|] eqn:E; [exact (G c fs V H E f Q)|discriminate Q].
Qed.
(** The conditions around every place *)
Lemma places_seen t o ps : Forall2 (saw t) o ps ->
  forall x, In x o -> exists p, In p ps /\ saw t x p.
Proof.
  induction 1 as [|a b l m K _ IH]; [intros x []|]. intros x [<-|J].
  - exists b. split; [left; reflexivity|exact K].
  - destruct (IH x J) as (p & Q & R). exists p. split; [right; exact Q|exact R].
Qed.

Theorem inside_supported t r u x : honest u -> In x (snd (visit r (Scope [] t t))) ->
  exists around, In (at_ x, around) (places [] r)
    /\ ((forall c, In c around -> var_free c /\ holds u c = true) ->
        forall f, t_exclude (by_rules x) f = true -> t_exclude t f = true \/ has u f = true).
Proof.
  intros Hu J. pose proof (scopes t r) as H. destruct (visit r (Scope [] t t)) as [s o]. destruct H as (_ & _ & _ & H).
  destruct (places_seen t o _ H x J) as ([n around] & K & (A & (_ & _ & C) & _)). cbn [fst snd] in *. exists around. rewrite A. split; [exact K|].
  intros G f E. rewrite C in E. apply orb_true_iff in E. destruct E as [E|E]; [left; exact E|right].
  apply existsb_exists in E. destruct E as (c & L & E). destruct (G c L) as [V Q]. exact (supported_holds u Hu c V Q f E).
Qed.
