(** Patterns: parsing, writing, and injectivity. *)
From Coq Require Import List Bool String Ascii PeanoNat NArith Lia.
From Verif Require Import PatternModel PatternSpec.
Import ListNotations.
Local Open Scope string_scope.

Lemma sapp_nil : forall s, s ++ "" = s.
Proof. induction s; cbn; [reflexivity|]. now f_equal. Qed.
Lemma sapp_assoc : forall a b c, (a ++ b) ++ c = a ++ (b ++ c).
Proof. induction a; intros; cbn; [reflexivity|]. now f_equal. Qed.
Lemma slen_app : forall a b, String.length (a ++ b) = String.length a + String.length b.
Proof. induction a; intros; cbn; [reflexivity|]. now f_equal. Qed.
Lemma sapp_inj : forall a a' b b', String.length a = String.length a' -> a ++ b = a' ++ b' -> a = a' /\ b = b'.
Proof.
  induction a as [|c a IH]; intros [|c' a'] b b' L E; cbn in *; try discriminate; [auto|].
  injection E as -> E. injection L as L. destruct (IH a' b b' L E) as [-> ->]. auto.
Qed.
Lemma take_drop : forall n s, str_take n s ++ str_drop n s = s.
Proof. induction n; intros [|c s]; cbn; try reflexivity. now rewrite IHn. Qed.
Lemma drop_len : forall n s, String.length (str_drop n s) = String.length s - n.
Proof. induction n; intros [|c s]; cbn; try reflexivity. apply IHn. Qed.
Lemma drop_app : forall a b, str_drop (String.length a) (a ++ b) = b.
Proof. induction a; intros; cbn; [reflexivity|]. apply IHa. Qed.
Lemma take_app : forall a b, str_take (String.length a) (a ++ b) = a.
Proof. induction a; intros; cbn; [reflexivity|]. now rewrite IHa. Qed.

(** ** Substitution *)

Section Fill.
Variable v : slot -> string.

Lemma filled_lit : forall a s o, occurs "[" a = false -> filled v s o -> filled v (a ++ s) (a ++ o).
Proof.
  induction a as [|c a IH]; intros s o N F; [exact F|]. cbn [occurs] in N.
  apply orb_false_iff in N. destruct N as [N1 N2]. apply filled_char; [|apply IH; assumption].
  intros ->. discriminate.
Qed.

Lemma slot_bracket : forall k s, exists r, slot_text k ++ s = String "[" r.
Proof. intros [] s; eexists; reflexivity. Qed.

Lemma slot_inj : forall k k' s s', slot_text k ++ s = slot_text k' ++ s' -> k = k' /\ s = s'.
Proof. intros [] [] s s' E; cbn in E; inversion E; auto. Qed.

Lemma filled_fun : forall s o, filled v s o -> forall o', filled v s o' -> o = o'.
Proof.
  induction 1 as [|c s o C F IH|k s o F IH]; intros o' F'.
  - inversion F' as [|? ? ? ? ?|k ? ? ? E]; [reflexivity|]. destruct k; discriminate.
  - inversion F' as [|c' s' o1 C' F1|k s' o1 F1 E]; subst.
    + f_equal. apply IH. exact F1.
    + destruct k; cbn in E; injection E; intros; subst; congruence.
  - remember (slot_text k ++ s) as t eqn:T. inversion F' as [E|c' s' o1 C' F1 E|k' s' o1 F1 E]; subst.
    + destruct k; discriminate.
    + destruct k; cbn in E; injection E; intros; subst; congruence.
    + apply slot_inj in E. destruct E as [-> ->]. f_equal. apply IH. exact F1.
Qed.
End Fill.

(** ** Parsing *)

Lemma find_some : forall c s n, find_char c s = Some n ->
  exists a b, s = a ++ String c b /\ String.length a = n /\ occurs c a = false.
Proof.
  intros c. induction s as [|d s IH]; intros n E; cbn in E; [discriminate|].
  destruct (Ascii.eqb c d) eqn:C.
  - injection E as <-. apply Ascii.eqb_eq in C. subst. exists "", s. auto.
  - destruct (find_char c s) as [m|]; [|discriminate]. injection E as <-.
    destruct (IH m eq_refl) as (a & b & -> & L & N). exists (String d a), b. cbn. rewrite C, N. auto.
Qed.
Lemma find_none : forall c s, find_char c s = None -> occurs c s = false.
Proof.
  intros c. induction s as [|d s IH]; intros E; cbn in *; [reflexivity|].
  destruct (Ascii.eqb c d); [discriminate|]. destruct (find_char c s); [discriminate|]. auto.
Qed.

Definition seg_slot (s : segment) : option slot :=
  match s with SName => Some Name | SLocal => Some Local | SHash => Some Hash | SContentHash => Some ContentHash
  | SLiteral _ => None end.
Definition seg_source (s : segment) : string :=
  match s with SLiteral t => t | SName => "[name]" | SLocal => "[local]" | SHash => "[hash]"
  | SContentHash => "[content-hash]" end.

Lemma placeholder_some : forall s g, placeholder s = Some g ->
  exists k, seg_slot g = Some k /\ s = slot_text k.
Proof.
  intros s g. unfold placeholder.
  destruct (String.eqb_spec s "[name]"); [intros E; injection E as <-; exists Name; auto|].
  destruct (String.eqb_spec s "[local]"); [intros E; injection E as <-; exists Local; auto|].
  destruct (String.eqb_spec s "[hash]"); [intros E; injection E as <-; exists Hash; auto|].
  destruct (String.eqb_spec s "[content-hash]"); [intros E; injection E as <-; exists ContentHash; auto|].
  discriminate.
Qed.
Lemma placeholder_none : forall s, placeholder s = None -> ~ is_slot_text s.
Proof. intros s E [[] ->]; discriminate. Qed.

(** What the outcome of the loop says about its input. *)
Definition outcome_ok (input : string) (start : nat) (r : list segment + pattern_error) : Prop :=
  match r with
  | inl l => input = fold_right append "" (map seg_source l) /\
      forall hash stem local content,
        filled (values hash stem local content) input
          (fold_right append "" (pattern_write l hash stem local content))
  | inr (UnknownPlaceholder t i) =>
      exists a b, input = a ++ t ++ b /\ i = start + String.length a /\
        (forall v, exists o, filled v a o) /\
        (exists m, t = "[" ++ m ++ "]" /\ occurs "]" m = false) /\ ~ is_slot_text t
  | inr (UnclosedBrackets i) =>
      exists a b, input = a ++ "[" ++ b /\ i = start + String.length a /\
        (forall v, exists o, filled v a o) /\ occurs "]" b = false
  end.

Lemma bracket_split : forall s e, starts_bracket s = true -> find_char "]" s = Some e ->
  exists m b, s = ("[" ++ m ++ "]") ++ b /\ str_take (S e) s = "[" ++ m ++ "]" /\ str_drop (S e) s = b
    /\ occurs "]" m = false /\ S e = String.length ("[" ++ m ++ "]").
Proof.
  intros [|c s] e B F; [discriminate|]. cbn in B. apply Ascii.eqb_eq in B. subst c.
  destruct (find_some _ _ _ F) as (a & b & E & L & N).
  destruct a as [|c a]; [discriminate|]. cbn in E. injection E as <- E. subst s.
  exists a, b. cbn [String.length] in L.
  assert (X : String "[" (a ++ String "]" b) = ("[" ++ a ++ "]") ++ b).
  { cbn. f_equal. rewrite sapp_assoc. reflexivity. }
  assert (Y : S e = String.length ("[" ++ a ++ "]")).
  { cbn. rewrite slen_app. cbn. lia. }
  rewrite X, Y. rewrite take_app, drop_app. cbn [occurs] in N.
  apply orb_false_iff in N. destruct N as [_ N]. auto.
Qed.

Lemma cons_ok : forall a seg r start,
  (exists k, seg_slot seg = Some k /\ a = slot_text k) \/ (seg = SLiteral a /\ occurs "[" a = false) ->
  forall rest, outcome_ok rest (start + String.length a) r ->
  outcome_ok (a ++ rest) start (cons_seg seg r).
Proof.
  intros a seg r start H rest O.
  assert (Src : a = seg_source seg).
  { destruct H as [(k & K & ->)|[-> _]]; [destruct seg; inversion K; reflexivity|reflexivity]. }
  assert (Ext : forall v s o, filled v s o -> exists o', filled v (a ++ s) o').
  { intros v s o F. destruct H as [(k & K & ->)|[-> N]].
    - eexists. apply filled_slot. exact F.
    - eexists. apply filled_lit; eassumption. }
  destruct r as [l|[t i|i]]; cbn [cons_seg outcome_ok] in *.
  - destruct O as [S F]. split.
    + cbn [map fold_right]. rewrite <- Src, <- S. reflexivity.
    + intros. cbn [pattern_write map fold_right]. specialize (F hash stem local content).
      destruct H as [(k & K & ->)|[-> N]].
      * replace (segment_text hash stem local content seg) with (values hash stem local content k)
          by (destruct seg; inversion K; reflexivity).
        apply filled_slot. exact F.
      * apply filled_lit; assumption.
  - destruct O as (x & y & -> & -> & F & M & P). exists (a ++ x), y.
    rewrite sapp_assoc, slen_app. split; [reflexivity|]. split; [lia|]. split; [|auto].
    intros v. destruct (F v) as [o Fo]. exact (Ext v x o Fo).
  - destruct O as (x & y & -> & -> & F & M). exists (a ++ x), y.
    rewrite sapp_assoc, slen_app. split; [reflexivity|]. split; [lia|]. split; [|auto].
    intros v. destruct (F v) as [o Fo]. exact (Ext v x o Fo).
Qed.

Lemma loop_ok : forall fuel input start, String.length input < fuel ->
  exists r, parse_loop fuel input start = Some r /\ outcome_ok input start r.
Proof.
  induction fuel as [|fuel IH]; intros input start L; [lia|]. cbn [parse_loop].
  destruct input as [|c s].
  { eexists. split; [reflexivity|]. split; [reflexivity|]. intros. apply filled_nil. }
  set (input := String c s) in *.
  destruct (starts_bracket input) eqn:B.
  - destruct (find_char "]" input) as [e|] eqn:F.
    + destruct (bracket_split _ _ B F) as (m & b & E & T & D & N & Y). rewrite T, D.
      destruct (placeholder ("[" ++ m ++ "]")) as [seg|] eqn:P.
      * destruct (IH b (start + e + 1)) as (r & R & O).
        { rewrite E in L. rewrite slen_app in L. cbn in L. lia. }
        rewrite R. eexists. split; [reflexivity|]. rewrite E.
        apply cons_ok.
        -- left. apply placeholder_some. exact P.
        -- rewrite <- Y. replace (start + S e) with (start + e + 1) by lia. exact O.
      * eexists. split; [reflexivity|]. exists "", b. rewrite Nat.add_0_r. split; [exact E|].
        split; [reflexivity|]. split; [intros v; exists ""; apply filled_nil|].
        split; [exists m; auto|]. apply placeholder_none. exact P.
    + eexists. split; [reflexivity|]. subst input. cbn in B. apply Ascii.eqb_eq in B. subst c.
      exists "", s. rewrite Nat.add_0_r. split; [reflexivity|]. split; [reflexivity|].
      split; [intros v; exists ""; apply filled_nil|].
      apply find_none in F. cbn [occurs] in F. apply orb_false_iff in F. apply F.
  - set (e := match find_char "[" input with Some e => e | None => String.length input end).
    assert (E : exists a b, input = a ++ b /\ String.length a = e /\ occurs "[" a = false /\ a <> "").
    { subst e. destruct (find_char "[" input) as [e|] eqn:F.
      - destruct (find_some _ _ _ F) as (a & b & Eq & L1 & N). exists a, (String "[" b).
        split; [exact Eq|]. split; [exact L1|]. split; [exact N|].
        intros ->. rewrite Eq in B. discriminate.
      - exists input, "". rewrite sapp_nil. split; [reflexivity|]. split; [reflexivity|].
        split; [apply find_none; exact F|]. discriminate. }
    clearbody e. destruct E as (a & b & Eq & La & N & NE). rewrite Eq, <- La, take_app, drop_app.
    destruct (IH b (start + String.length a)) as (r & R & O).
    { rewrite Eq, slen_app in L. destruct a; [congruence|]. cbn in L. lia. }
    rewrite R. eexists. split; [reflexivity|]. apply cons_ok; [right; auto|exact O].
Qed.

Theorem parse_ok : forall s, exists r, parse_pattern s = Some r /\ outcome_ok s 0 r.
Proof. intros s. apply loop_ok. lia. Qed.

Lemma fold_append : forall l res, fold_left append l res = res ++ fold_right append "" l.
Proof.
  induction l as [|x l IH]; intros res; cbn; [symmetry; apply sapp_nil|].
  rewrite IH, sapp_assoc. reflexivity.
Qed.

Theorem pattern_written : forall s l hash stem local content,
  parse_pattern s = Some (inl l) ->
  filled (values hash stem local content) s (pattern_string l "" hash stem local content).
Proof.
  intros s l hash stem local content E. destruct (parse_ok s) as (r & R & O).
  rewrite E in R. injection R as <-. destruct O as [_ F].
  unfold pattern_string. rewrite fold_append. apply F.
Qed.

Lemma filled_bracket : forall v s o, filled v s o -> forall a b, s = a ++ String "[" b ->
  (exists o', filled v a o') -> exists k r, String "[" b = slot_text k ++ r.
Proof.
  intros v s o F. induction F as [|c s o C F IH|k s o F IH]; intros a b E [o' A].
  - destruct a; discriminate.
  - destruct a as [|d a]; cbn in E; injection E as -> ->; [congruence|].
    inversion A as [|c' s' o1 C' F1|k s' o1 F1 E1]; subst; [eapply IH; [reflexivity|eauto]|].
    destruct k; cbn in E1; injection E1; intros; subst; congruence.
  - inversion A as [E1|c' s' o1 C' F1 E1|k' s' o1 F1 E1]; subst.
    + cbn in E. exists k, s. symmetry. exact E.
    + destruct k; cbn in E; injection E; intros; subst; congruence.
    + rewrite sapp_assoc in E. apply slot_inj in E. destruct E as [-> ->].
      eapply IH; [reflexivity|eauto].
Qed.

Lemma close_split : forall m m' b b', occurs "]" m = false -> occurs "]" m' = false ->
  m ++ String "]" b = m' ++ String "]" b' -> m = m'.
Proof.
  induction m as [|c m IH]; intros [|c' m'] b b' N N' E; cbn in *; [reflexivity| | |].
  - injection E as <- _. discriminate.
  - injection E as -> _. discriminate.
  - injection E as -> E. apply orb_false_iff in N, N'. f_equal. eapply IH; [apply N|apply N'|exact E].
Qed.

Lemma slot_middle : forall k, exists m, slot_text k = "[" ++ m ++ "]" /\ occurs "]" m = false.
Proof.
  intros []; [exists "name"|exists "local"|exists "hash"|exists "content-hash"]; auto.
Qed.

Theorem pattern_accepted : forall s v, (exists l, parse_pattern s = Some (inl l)) <-> (exists o, filled v s o).
Proof.
  intros s v. destruct (parse_ok s) as (r & R & O). split.
  - intros [l E]. rewrite E in R. injection R as <-. destruct O as [S _].
    assert (A : forall p, (exists q, parse_pattern p = Some (inl q) /\ q = l) -> exists o, filled v p o).
    { intros p (q & Q & ->). clear -Q. destruct (parse_ok p) as (r & R & O). rewrite Q in R. injection R as <-.
      revert Q. cbn in O. destruct O as [S F]. intros _.
      (* any values: rebuild from the values of the four slots when the stem has no dots *)
      revert p S F. assert (K : forall p, (forall hash stem local content, exists o, filled (values hash stem local content) p o) -> exists o, filled v p o).
      { intros p H. destruct (H "" "" "" "") as [o Fo]. clear H.
        induction Fo as [|c s o C Fo IH|k s o Fo IH].
        - exists "". apply filled_nil.
        - destruct IH as [o' F']. exists (String c o'). apply filled_char; assumption.
        - destruct IH as [o' F']. exists (v k ++ o'). apply filled_slot. exact F'. }
      intros p S F. apply K. intros. eexists. apply F. }
    apply A. exists l. auto.
  - intros [o F]. destruct r as [l|[t i|i]]; [eauto|exfalso|exfalso].
    + destruct O as (a & b & -> & _ & A & (m & -> & N) & P).
      destruct (filled_bracket v _ _ F a (m ++ "]" ++ b)) as (k & r & E); [|apply A|].
      { f_equal. cbn. rewrite sapp_assoc. reflexivity. }
      destruct (slot_middle k) as (m' & K & N'). rewrite K in E.
      change (("[" ++ m' ++ "]") ++ r) with (String "[" ((m' ++ "]") ++ r)) in E.
      rewrite sapp_assoc in E. injection E as E.
      apply close_split in E; [|assumption|assumption]. subst m'. apply P. exists k. auto.
    + destruct O as (a & b & -> & _ & A & N).
      destruct (filled_bracket v _ _ F a b) as (k & r & E); [reflexivity|apply A|].
      destruct (slot_middle k) as (m' & K & N'). rewrite K in E.
      change (("[" ++ m' ++ "]") ++ r) with (String "[" ((m' ++ "]") ++ r)) in E.
      rewrite sapp_assoc in E. injection E as E. subst b.
      assert (X : forall x y, occurs "]" (x ++ String "]" y) = true).
      { induction x as [|c x IHx]; intros y; [reflexivity|]. cbn. rewrite IHx. apply orb_true_r. }
      change (m' ++ "]" ++ r) with (m' ++ String "]" r) in N. rewrite X in N. discriminate.
Qed.

Theorem pattern_unknown : forall s t i, parse_pattern s = Some (inr (UnknownPlaceholder t i)) ->
  (exists a b, s = a ++ t ++ b /\ i = String.length a) /\
  (exists m, t = "[" ++ m ++ "]" /\ occurs "]" m = false) /\ ~ is_slot_text t.
Proof.
  intros s t i E. destruct (parse_ok s) as (r & R & O). rewrite E in R. injection R as <-.
  destruct O as (a & b & -> & -> & _ & M & P). split; [exists a, b; auto|]. auto.
Qed.

Theorem pattern_unclosed : forall s i, parse_pattern s = Some (inr (UnclosedBrackets i)) ->
  exists a b, s = a ++ "[" ++ b /\ i = String.length a /\ occurs "]" b = false.
Proof.
  intros s i E. destruct (parse_ok s) as (r & R & O). rewrite E in R. injection R as <-.
  destruct O as (a & b & -> & -> & _ & M). exists a, b. auto.
Qed.

Theorem pattern_total : forall s, parse_pattern s <> None.
Proof. intros s. destruct (parse_ok s) as (r & R & _). rewrite R. discriminate. Qed.

(** ** Injectivity *)

Definition total_len (l : list string) : nat := fold_right (fun s n => String.length s + n) 0 l.
Lemma len_concat : forall l, String.length (fold_right append "" l) = total_len l.
Proof. induction l; cbn; [reflexivity|]. rewrite slen_app, IHl. reflexivity. Qed.

Lemma concat_aligned : forall l l', Forall2 (fun x y => String.length x = String.length y) l l' ->
  fold_right append "" l = fold_right append "" l' -> l = l'.
Proof.
  induction 1 as [|x y l l' L F IH]; intros E; [reflexivity|]. cbn in E.
  apply sapp_inj in E; [|exact L]. destruct E as [-> E]. f_equal. auto.
Qed.

Definition locals (p : list segment) : nat :=
  List.length (filter (fun s => match s with SLocal => true | _ => false end) p).
Lemma locals_pos : forall p, has_local p -> 0 < locals p.
Proof.
  unfold has_local, locals. induction p as [|s p IH]; intros H; [destruct H|].
  destruct H as [->|H]; [cbn; lia|]. cbn. destruct s; cbn; try lia; apply IH; exact H.
Qed.

(** The length of a name in terms of the length of the local name, when the
    other values have the same lengths. *)
Lemma len_written : forall p h s l c h' s' l' c',
  String.length h = String.length h' -> String.length (undot s) = String.length (undot s') ->
  String.length c = String.length c' ->
  total_len (pattern_write p h s l c) + locals p * String.length l'
  = total_len (pattern_write p h' s' l' c') + locals p * String.length l.
Proof.
  intros p h s l c h' s' l' c' H S C. induction p as [|g p IH]; [reflexivity|].
  cbn [pattern_write map total_len fold_right] in *. unfold pattern_write, total_len in IH.
  destruct g; unfold locals in *; cbn [segment_text filter List.length] in *; lia.
Qed.

Lemma aligned : forall p h s l c h' s' l' c', String.length h = String.length h' ->
  String.length (undot s) = String.length (undot s') -> String.length c = String.length c' ->
  String.length l = String.length l' ->
  Forall2 (fun x y => String.length x = String.length y) (pattern_write p h s l c) (pattern_write p h' s' l' c').
Proof.
  intros p h s l c h' s' l' c' H S C L. induction p as [|g p IH]; cbn; constructor; [|exact IH].
  destruct g; cbn; auto.
Qed.

Lemma in_written : forall p g h s l c h' s' l' c', In g p ->
  pattern_write p h s l c = pattern_write p h' s' l' c' ->
  segment_text h s l c g = segment_text h' s' l' c' g.
Proof.
  induction p as [|x p IH]; intros g h s l c h' s' l' c' I E; [destruct I|].
  cbn in E. injection E as E1 E2. destruct I as [->|I]; [exact E1|]. eapply IH; eassumption.
Qed.

Lemma aligned_names : forall p h s l c h' s' l' c', has_local p ->
  String.length h = String.length h' -> String.length (undot s) = String.length (undot s') ->
  String.length c = String.length c' ->
  pattern_string p "" h s l c = pattern_string p "" h' s' l' c' ->
  pattern_write p h s l c = pattern_write p h' s' l' c'.
Proof.
  intros p h s l c h' s' l' c' HL H S C E. unfold pattern_string in E. rewrite !fold_append in E.
  cbn [append] in E.
  assert (T : total_len (pattern_write p h s l c) = total_len (pattern_write p h' s' l' c')).
  { rewrite <- !len_concat, E. reflexivity. }
  pose proof (len_written p h s l c h' s' l' c' H S C) as W. pose proof (locals_pos p HL) as P.
  assert (L : String.length l = String.length l') by nia.
  apply concat_aligned; [apply aligned; assumption|exact E].
Qed.

Theorem same_file_injective : forall p h s l l' c, has_local p ->
  pattern_string p "" h s l c = pattern_string p "" h s l' c -> l = l'.
Proof.
  intros p h s l l' c HL E. apply aligned_names in E; auto.
  exact (in_written p SLocal h s l c h s l' c HL E).
Qed.

(** *** Hashes *)

Lemma symbol_inj : forall a b, (a < 64)%N -> (b < 64)%N -> symbol a = symbol b -> a = b.
Proof.
  assert (D : forall n, n < 64 -> forall m, m < 64 ->
            symbol (N.of_nat n) = symbol (N.of_nat m) -> n = m).
  { assert (C : forallb (fun n => forallb (fun m => implb (Ascii.eqb (symbol (N.of_nat n)) (symbol (N.of_nat m))) (Nat.eqb n m))
                  (seq 0 64)) (seq 0 64) = true) by (vm_compute; reflexivity).
    rewrite forallb_forall in C. intros n Hn m Hm E.
    specialize (C n). rewrite forallb_forall in C by (apply in_seq; lia).
    assert (I : In n (seq 0 64)) by (apply in_seq; lia).
    assert (J : In m (seq 0 64)) by (apply in_seq; lia).
    specialize (C I m J). rewrite E, Ascii.eqb_refl in C. cbn in C. apply Nat.eqb_eq. exact C. }
  intros a b Ha Hb E. rewrite <- (N2Nat.id a), <- (N2Nat.id b) in *. f_equal.
  apply D; [lia|lia|exact E].
Qed.

Lemma encode_len : forall v, String.length (encode v) = 6.
Proof. reflexivity. Qed.

Local Open Scope N_scope.

Lemma le_bits_bound : forall v, le_bits v < 64 * 1073741824.
Proof.
  intros v. unfold le_bits.
  pose proof (N.mod_lt v 256). pose proof (N.mod_lt (v / 256) 256).
  pose proof (N.mod_lt (v / 65536) 256). pose proof (N.mod_lt (v / 16777216) 256). lia.
Qed.

Lemma le_bits_inj : forall a b, is_u32 a -> is_u32 b -> le_bits a = le_bits b -> a = b.
Proof.
  unfold is_u32, le_bits. intros a b Ha Hb E.
  assert (S : forall v, v < 4294967296 ->
    v = v mod 256 + 256 * ((v / 256) mod 256) + 65536 * ((v / 65536) mod 256) + 16777216 * ((v / 16777216) mod 256)).
  { intros v Hv.
    replace (v / 65536) with (v / 256 / 256) by (rewrite N.div_div by lia; reflexivity).
    replace (v / 16777216) with (v / 256 / 256 / 256) by (rewrite !N.div_div by lia; reflexivity).
    pose proof (N.div_mod v 256). pose proof (N.div_mod (v / 256) 256). pose proof (N.div_mod (v / 256 / 256) 256).
    pose proof (N.div_mod (v / 256 / 256 / 256) 256).
    assert (v / 256 / 256 / 256 / 256 = 0).
    { rewrite !N.div_div by lia. apply N.div_small. exact Hv. }
    lia. }
  rewrite (S a Ha), (S b Hb).
  pose proof (N.mod_lt a 256). pose proof (N.mod_lt (a / 256) 256).
  pose proof (N.mod_lt (a / 65536) 256). pose proof (N.mod_lt (a / 16777216) 256).
  pose proof (N.mod_lt b 256). pose proof (N.mod_lt (b / 256) 256).
  pose proof (N.mod_lt (b / 65536) 256). pose proof (N.mod_lt (b / 16777216) 256).
  clear S Ha Hb.
  generalize dependent (a mod 256). generalize dependent ((a / 256) mod 256).
  generalize dependent ((a / 65536) mod 256). generalize dependent ((a / 16777216) mod 256).
  generalize dependent (b mod 256). generalize dependent ((b / 256) mod 256).
  generalize dependent ((b / 65536) mod 256). generalize dependent ((b / 16777216) mod 256).
  clear a b. intros. lia.
Qed.

Lemma digits64 : forall b, b < 64 * 1073741824 ->
  b = (b / 1073741824) * 1073741824 + ((b / 16777216) mod 64) * 16777216 + ((b / 262144) mod 64) * 262144
      + ((b / 4096) mod 64) * 4096 + ((b / 64) mod 64) * 64 + b mod 64.
Proof.
  intros b H.
  replace (b / 4096) with (b / 64 / 64) by (rewrite N.div_div by lia; reflexivity).
  replace (b / 262144) with (b / 64 / 64 / 64) by (rewrite !N.div_div by lia; reflexivity).
  replace (b / 16777216) with (b / 64 / 64 / 64 / 64) by (rewrite !N.div_div by lia; reflexivity).
  replace (b / 1073741824) with (b / 64 / 64 / 64 / 64 / 64) by (rewrite !N.div_div by lia; reflexivity).
  pose proof (N.div_mod b 64). pose proof (N.div_mod (b / 64) 64). pose proof (N.div_mod (b / 64 / 64) 64).
  pose proof (N.div_mod (b / 64 / 64 / 64) 64). pose proof (N.div_mod (b / 64 / 64 / 64 / 64) 64). lia.
Qed.

Lemma encode_inj : forall a b, is_u32 a -> is_u32 b -> encode a = encode b -> a = b.
Proof.
  intros a b Ha Hb E. apply le_bits_inj; try assumption.
  pose proof (le_bits_bound a) as Ba. pose proof (le_bits_bound b) as Bb.
  unfold encode in E. set (x := le_bits a) in *. set (y := le_bits b) in *. clearbody x y.
  assert (Tx : x / 1073741824 < 64) by (apply N.div_lt_upper_bound; lia).
  assert (Ty : y / 1073741824 < 64) by (apply N.div_lt_upper_bound; lia).
  injection E as E1 E2 E3 E4 E5 E6.
  apply symbol_inj in E1; [|assumption|assumption].
  apply symbol_inj in E2; [|apply N.mod_lt; lia|apply N.mod_lt; lia].
  apply symbol_inj in E3; [|apply N.mod_lt; lia|apply N.mod_lt; lia].
  apply symbol_inj in E4; [|apply N.mod_lt; lia|apply N.mod_lt; lia].
  apply symbol_inj in E5; [|apply N.mod_lt; lia|apply N.mod_lt; lia].
  apply symbol_inj in E6; [|apply N.mod_lt; lia|apply N.mod_lt; lia].
  rewrite (digits64 x Ba), (digits64 y Bb), E1, E2, E3, E4, E5, E6. reflexivity.
Qed.

(** The last symbol carries only two bits. *)
Lemma last_symbol : forall v, exists c, In c ["a"; "q"; "G"; "W"]%char /\
  String.get 5 (encode v) = Some c.
Proof.
  intros v. exists (symbol (le_bits v mod 64)). split; [|reflexivity].
  assert (H : exists k, k < 4 /\ le_bits v mod 64 = 16 * k).
  { unfold le_bits. set (n := _ + _).
    exists (n mod 4). split; [apply N.mod_lt; lia|].
    rewrite (N.mul_comm n 16). change 64 with (16 * 4). rewrite N.mul_mod_distr_l by lia. reflexivity. }
  destruct H as (k & K & ->).
  assert (C : k = 0 \/ k = 1 \/ k = 2 \/ k = 3) by lia.
  destruct C as [C|[C|[C|C]]]; subst k; vm_compute; auto.
Qed.

Local Close Scope N_scope.

Lemma hash_len : forall v, String.length (hash_text v false) = 6.
Proof. reflexivity. Qed.

Lemma hash_not_start_inj : forall a b, is_u32 a -> is_u32 b -> hash_text a false = hash_text b false -> a = b.
Proof. intros a b Ha Hb E. apply encode_inj; assumption. Qed.

Lemma get_last : forall v s, exists c, In c ["a"; "q"; "G"; "W"]%char /\ String.get 6 (("_" ++ encode v) ++ s) = Some c.
Proof.
  intros v s. destruct (last_symbol v) as (c & I & G). exists c. split; [exact I|].
  unfold encode in *. cbn [append String.get] in *. exact G.
Qed.
Lemma get_sep : forall v c s, String.get 6 (encode v ++ String c s) = Some c.
Proof. reflexivity. Qed.

Lemma sep_out : forall c s, separates (String c s) = true -> ~ In c ["a"; "q"; "G"; "W"]%char.
Proof.
  intros c s S I. cbn [separates] in S. apply negb_true_iff in S.
  assert (X : existsb (Ascii.eqb c) ["a"; "q"; "G"; "W"]%char = true).
  { apply existsb_exists. exists c. split; [exact I|apply Ascii.eqb_refl]. }
  congruence.
Qed.

(** No file or content names in the pattern: files only differ by their hash. *)
Lemma fixed_written : forall p h s l c s' c', Forall (fun g => fixed_segment g = true) p ->
  pattern_write p h s l c = pattern_write p h s' l c'.
Proof.
  intros p h s l c s' c' F. unfold pattern_write. apply map_ext_in. intros g I.
  rewrite Forall_forall in F. specialize (F g I). destruct g; try discriminate; reflexivity.
Qed.

Lemma pattern_string_cons : forall g p h s l c,
  pattern_string (g :: p) "" h s l c = segment_text h s l c g ++ pattern_string p "" h s l c.
Proof. intros. unfold pattern_string. rewrite !fold_append. reflexivity. Qed.

Theorem files_injective : forall p v v' s s' l l' c c' n,
  has_local p -> In SHash p -> Forall (fun g => fixed_segment g = true) p ->
  (match p with SHash :: SLiteral t :: _ => separates t = true | SHash :: _ => False | _ => True end) ->
  is_u32 v -> is_u32 v' ->
  name_in p v s l c = Some n -> name_in p v' s' l' c' = Some n -> v = v' /\ l = l'.
Proof.
  intros p v v' s s' l l' c c' n HL HH HF HS Uv Uv' E E'. unfold name_in in *.
  destruct (hash_at_start p) as [b|] eqn:B; [|discriminate].
  assert (Q : pattern_string p "" (hash_text v b) s l c = pattern_string p "" (hash_text v' b) s l' c).
  { transitivity n; [congruence|]. injection E' as <-. unfold pattern_string.
    rewrite (fixed_written p _ s' l' c' s c HF). reflexivity. }
  clear E E'.
  assert (L : String.length (hash_text v b) = String.length (hash_text v' b)).
  { destruct b; [|reflexivity].
    destruct p as [|g p]; [discriminate B|]. destruct g; try discriminate B.
    destruct p as [|g p]; [destruct HS|]. destruct g as [t| | | |]; try contradiction.
    destruct t as [|x t]; [discriminate|]. pose proof (sep_out x t HS) as NI.
    rewrite !pattern_string_cons in Q. cbn [segment_text] in Q. unfold hash_text in *.
    cbn [andb] in *.
    destruct (starts_digit (encode v)), (starts_digit (encode v')); try reflexivity; exfalso.
    - destruct (get_last v ((String x t) ++ pattern_string p "" ("_" ++ encode v) s l c)) as (y & I & G).
      rewrite Q in G. cbn [append] in G. rewrite get_sep in G. injection G as ->. exact (NI I).
    - destruct (get_last v' ((String x t) ++ pattern_string p "" ("_" ++ encode v') s l' c)) as (y & I & G).
      rewrite <- Q in G. cbn [append] in G. rewrite get_sep in G. injection G as ->. exact (NI I). }
  apply aligned_names in Q; auto.
  pose proof (in_written _ _ _ _ _ _ _ _ _ _ HL Q) as Ql.
  pose proof (in_written _ _ _ _ _ _ _ _ _ _ HH Q) as Qh. cbn [segment_text] in *. split; [|exact Ql].
  unfold hash_text in Qh.
  destruct (b && starts_digit (encode v)), (b && starts_digit (encode v')).
  - apply encode_inj; try assumption. apply (sapp_inj "_" "_" _ _ eq_refl Qh).
  - exfalso. apply (f_equal String.length) in Qh. rewrite slen_app, !encode_len in Qh. discriminate.
  - exfalso. apply (f_equal String.length) in Qh. rewrite slen_app, !encode_len in Qh. discriminate.
  - apply encode_inj; assumption.
Qed.

(** ** The first segment *)

Definition literal_ok (g : segment) : Prop :=
  match g with SLiteral t => t <> "" /\ occurs "[" t = false | _ => True end.

Lemma loop_literals : forall fuel input start l, parse_loop fuel input start = Some (inl l) -> Forall literal_ok l.
Proof.
  induction fuel as [|fuel IH]; intros input start l E; [discriminate|]. cbn [parse_loop] in E.
  destruct input as [|c s]; [injection E as <-; constructor|]. set (input := String c s) in *.
  destruct (starts_bracket input) eqn:B.
  - destruct (find_char "]" input) as [e|]; [|discriminate].
    destruct (placeholder (str_take (S e) input)) as [g|] eqn:P; [|discriminate].
    destruct (parse_loop fuel (str_drop (S e) input) (start + e + 1)) as [[l'|]|] eqn:R; try discriminate.
    injection E as <-. constructor; [|eapply IH; exact R].
    destruct (placeholder_some _ _ P) as (k & K & _). destruct g; try exact I. discriminate.
  - set (e := match find_char "[" input with Some e => e | None => String.length input end) in *.
    destruct (parse_loop fuel (str_drop e input) (start + e)) as [[l'|]|] eqn:R; try discriminate.
    injection E as <-. constructor; [|eapply IH; exact R].
    assert (X : exists a b, input = a ++ b /\ String.length a = e /\ occurs "[" a = false /\ a <> "").
    { subst e. destruct (find_char "[" input) as [e|] eqn:F.
      - destruct (find_some _ _ _ F) as (a & b & Eq & L1 & N). exists a, (String "[" b).
        split; [exact Eq|]. split; [exact L1|]. split; [exact N|].
        intros ->. rewrite Eq in B. discriminate.
      - exists input, "". rewrite sapp_nil. split; [reflexivity|]. split; [reflexivity|].
        split; [apply find_none; exact F|]. discriminate. }
    destruct X as (a & b & Eq & La & N & NE). cbn [literal_ok]. rewrite Eq, <- La, take_app. auto.
Qed.

Lemma parse_source : forall s l, parse_pattern s = Some (inl l) -> s = fold_right append "" (map seg_source l).
Proof.
  intros s l E. destruct (parse_ok s) as (r & R & O). rewrite E in R. injection R as <-. apply O.
Qed.

Theorem first_hash : forall s l b, parse_pattern s = Some (inl l) -> hash_at_start l = Some b ->
  b = String.prefix "[hash]" s.
Proof.
  intros s l b E H. pose proof (parse_source s l E) as S. pose proof (loop_literals _ _ _ _ E) as L.
  destruct l as [|g l]; [discriminate|]. cbn [map fold_right] in S.
  set (r := fold_right append "" (map seg_source l)) in *. clearbody r.
  inversion L as [|? ? Lg _]; subst. destruct g as [t| | | |]; cbn [hash_at_start] in H; injection H as <-.
  - destruct Lg as [NE N]. destruct t as [|c t]; [congruence|]. cbn [seg_source append String.prefix].
    destruct (ascii_dec "[" c) as [<-|_]; [|reflexivity]. discriminate.
  - reflexivity.
  - reflexivity.
  - cbn. destruct r; reflexivity.
  - reflexivity.
Qed.
