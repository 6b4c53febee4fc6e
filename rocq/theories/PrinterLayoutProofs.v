(** Minified and pretty output, and indentation. *)
From Coq Require Import List Bool String Ascii PeanoNat NArith Lia.
From Verif Require Import MediaModel IdentModel IdentSpec PatternModel PatternSpec PatternProofs.
From Verif Require Import PrinterModel PrinterSpec PrinterPosProofs.
Import ListNotations.
Local Open Scope nat_scope.
Local Open Scope bool_scope.
Local Open Scope list_scope.
Local Open Scope string_scope.

(** ** Adding blanks *)

Lemma inserted_refl : forall s, inserted s s.
Proof. induction s; constructor; assumption. Qed.
Lemma inserted_app : forall a b, inserted a b -> forall c d, inserted c d -> inserted (a ++ c) (b ++ d).
Proof.
  induction 1 as [|x s b I IH|n s b N I IH]; intros c d J; cbn [append]; [exact J| |].
  - constructor. apply IH. exact J.
  - apply ins_blank; [exact N|]. apply IH. exact J.
Qed.
Lemma inserted_blank : forall t, (forall c, occurs c t = true -> c = lf \/ c = space) -> inserted "" t.
Proof.
  induction t as [|c t IH]; intros H; [constructor|].
  assert (C : c = lf \/ c = space).
  { apply H. cbn. rewrite Ascii.eqb_refl. reflexivity. }
  assert (I : inserted "" t).
  { apply IH. intros d D. apply H. cbn. rewrite D. apply orb_true_r. }
  destruct C as [-> | ->]; [apply (ins_blank 10)|apply (ins_blank 32)]; auto.
Qed.

(** ** What does not depend on the layout *)

(** The part of the state shared by both modes. *)
Definition shared (p : printer) :=
  (p_indent p, p_loc p, p_exports p, p_refs p, map m_original (p_maps p)).

(** Two outcomes with the same effect on the shared state, adding the same
    text. *)
Definition same_text (p q : printer) (x y : outcome) : Prop :=
  match x, y with
  | Fine p', Fine q' => shared p' = shared q' /\ exists t, p_out p' = p_out p ++ t /\ p_out q' = p_out q ++ t
  | Failed, Failed => True
  | Panicked, Panicked => True
  | _, _ => False
  end.

(** Equal except for the output, the position, and the positions of mappings. *)
Inductive alike : printer -> printer -> Prop :=
  | Alike : forall o l c o' l' c' ind loc ms ms' ex rf, map m_original ms = map m_original ms' ->
      alike (mkprinter o l c ind loc ms ex rf) (mkprinter o' l' c' ind loc ms' ex rf).
Lemma shared_alike : forall p q, shared p = shared q <-> alike p q.
Proof.
  intros [o l c ind loc ms ex rf] [o' l' c' ind' loc' ms' ex' rf']. split.
  - unfold shared. cbn. intros E. injection E as -> -> -> -> E. constructor. exact E.
  - intros A. inversion A; subst. unfold shared. cbn. congruence.
Qed.

Definition adds (p p' : printer) (t : string) : Prop := p_out p' = p_out p ++ t.

Definition same (p q : printer) (x y : outcome) : Prop :=
  match x, y with
  | Fine p', Fine q' => alike p' q' /\ exists t, adds p p' t /\ adds q q' t
  | Failed, Failed => True
  | Panicked, Panicked => True
  | _, _ => False
  end.

Lemma same_fine : forall p q p' q' t, alike p' q' -> adds p p' t -> adds q q' t -> same p q (Fine p') (Fine q').
Proof. intros. split; [assumption|]. exists t. auto. Qed.

Lemma same_then : forall p q x y f g, same p q x y ->
  (forall p' q', alike p' q' -> same p' q' (f p') (g q')) -> same p q (andthen x f) (andthen y g).
Proof.
  intros p q [p'| |] [q'| |] f g S H; cbn [same andthen] in *; try contradiction; auto.
  destruct S as (A & t & T1 & T2). specialize (H p' q' A).
  destruct (f p') as [p2| |], (g q') as [q2| |]; cbn [same] in *; try contradiction; auto.
  destruct H as (B & u & U1 & U2). split; [exact B|]. exists (t ++ u). unfold adds in *.
  rewrite U1, U2, T1, T2, !sapp_assoc. auto.
Qed.

Lemma adds_nil : forall p p', p_out p' = p_out p -> adds p p' "".
Proof. intros p p' E. unfold adds. rewrite sapp_nil. exact E. Qed.

Lemma alike_put : forall p q s l c l' c', alike p q ->
  same p q (Fine (set_pos p (p_out p ++ s) l c)) (Fine (set_pos q (p_out q ++ s) l' c')).
Proof.
  intros p q s l c l' c' A. apply same_fine with (t := s); [|reflexivity|reflexivity].
  destruct A. constructor. assumption.
Qed.

Section Modes.
Variable hash32 : string -> N.
Variable modules : option (config * list source).
Variable remap : location -> option (option location).

Lemma char_same : forall p q s, alike p q -> same p q (Fine (write_char s p)) (Fine (write_char s q)).
Proof. intros p q s A. unfold write_char. destruct (String.eqb _ _); apply alike_put; exact A. Qed.

Lemma alike_exports : forall p q, alike p q -> p_exports p = p_exports q.
Proof. intros p q []. reflexivity. Qed.
Lemma alike_loc : forall p q, alike p q -> p_loc p = p_loc q.
Proof. intros p q []. reflexivity. Qed.
Lemma alike_indent : forall p q, alike p q -> p_indent p = p_indent q.
Proof. intros p q []. reflexivity. Qed.

Lemma same_exports : forall p q e, alike p q -> same p q (Fine (set_exports p e)) (Fine (set_exports q e)).
Proof.
  intros p q e A. apply same_fine with (t := ""); [|apply adds_nil; reflexivity|apply adds_nil; reflexivity].
  destruct A. constructor. assumption.
Qed.
Lemma same_id : forall p q, alike p q -> same p q (Fine p) (Fine q).
Proof. intros p q A. apply same_fine with (t := ""); [exact A|apply adds_nil; reflexivity|apply adds_nil; reflexivity]. Qed.

Lemma add_entry_same : forall cs a b c i p q, alike p q ->
  same p q (add_entry hash32 cs a b c i p) (add_entry hash32 cs a b c i q).
Proof.
  intros cs a b c i p q A. unfold add_entry. rewrite (alike_exports p q A).
  destruct (ex_get _ _); [apply same_id; exact A|].
  destruct (scoped_name _ _ _ _ _); [|exact I]. apply same_exports. exact A.
Qed.
Lemma mark_same : forall cs a b c i p q, alike p q ->
  same p q (mark hash32 cs a b c i p) (mark hash32 cs a b c i q).
Proof.
  intros cs a b c i p q A. unfold mark. rewrite (alike_exports p q A).
  destruct (ex_get _ _); [apply same_exports; exact A|].
  destruct (scoped_name _ _ _ _ _); [|exact I]. apply same_exports. exact A.
Qed.

Lemma ident_same : forall s h p q, alike p q ->
  same p q (write_ident hash32 modules s h p) (write_ident hash32 modules s h q).
Proof.
  intros s h p q A. unfold write_ident.
  destruct h, modules as [cs|]; try (apply alike_put; exact A).
  rewrite (alike_loc p q A). destruct (pieces _ _ _ _) as [l|]; [|exact I].
  change (add_local hash32 cs s s (l_source (p_loc q)) (write_pieces true l p))
    with (andthen (Fine (write_pieces true l p)) (add_local hash32 cs s s (l_source (p_loc q)))).
  change (add_local hash32 cs s s (l_source (p_loc q)) (write_pieces true l q))
    with (andthen (Fine (write_pieces true l q)) (add_local hash32 cs s s (l_source (p_loc q)))).
  apply same_then.
  - rewrite !write_pieces_eq. apply alike_put. exact A.
  - intros p' q' A'. apply add_entry_same. exact A'.
Qed.

Lemma dashed_same : forall s d p q, alike p q ->
  same p q (write_dashed_ident hash32 modules s d p) (write_dashed_ident hash32 modules s d q).
Proof.
  intros s d p q A.
  assert (E : forall x, write_dashed_ident hash32 modules s d x =
    andthen (Fine (write_str "--" x)) (fun p1 =>
      match modules with
      | Some cs => if cf_dashed (fst cs) then
          match pieces hash32 cs (l_source (p_loc p1)) (undash s) with
          | None => Panicked
          | Some l => andthen (Fine (write_pieces false l p1)) (fun p2 =>
              if d then add_dashed hash32 cs s (l_source (p_loc p2)) p2 else Fine p2)
          end else Fine (write_str (ser_name (undash s)) p1)
      | None => Fine (write_str (ser_name (undash s)) p1)
      end)).
  { intros x. unfold write_dashed_ident. cbn [andthen]. destruct modules as [cs|]; [|reflexivity].
    destruct (cf_dashed (fst cs)); [|reflexivity]. cbn [p_loc write_str set_pos].
    destruct (pieces _ _ _ _); [|reflexivity]. rewrite write_pieces_eq. reflexivity. }
  rewrite !E. apply same_then; [apply alike_put; exact A|]. clear p q A E. intros p q A.
  destruct modules as [cs|]; [|apply alike_put; exact A].
  destruct (cf_dashed (fst cs)); [|apply alike_put; exact A].
  rewrite (alike_loc p q A). destruct (pieces _ _ _ _) as [l|]; [|exact I].
  apply same_then; [rewrite !write_pieces_eq; apply alike_put; exact A|].
  intros p' q' A'. destruct d; [|apply same_id; exact A']. rewrite (alike_loc p' q' A').
  apply add_entry_same. exact A'.
Qed.

Lemma mark_if_same : forall b s p q, alike p q ->
  same p q (mark_if hash32 modules b s p) (mark_if hash32 modules b s q).
Proof.
  intros b s p q A. unfold mark_if. destruct b, modules as [cs|]; try (apply same_id; exact A).
  rewrite (alike_loc p q A). apply mark_same. exact A.
Qed.

Lemma site_same : forall k s p q, alike p q ->
  same p q (write_site hash32 modules k s p) (write_site hash32 modules k s q).
Proof.
  intros k s p q A.
  assert (C : forall n, same p q (write_ident hash32 modules s true (write_char (one (ch n)) p))
                                 (write_ident hash32 modules s true (write_char (one (ch n)) q))).
  { intros n. apply (same_then p q (Fine (write_char (one (ch n)) p)) (Fine (write_char (one (ch n)) q))
              (write_ident hash32 modules s true) (write_ident hash32 modules s true)).
    - apply char_same. exact A.
    - intros p' q' A'. apply ident_same. exact A'. }
  destruct k; cbn [write_site]; unfold write_custom.
  - apply C.
  - apply C.
  - apply ident_same; exact A.
  - destruct (keeps_quotes s); [apply alike_put; exact A|apply ident_same; exact A].
  - apply same_then; [apply mark_if_same; exact A|]. intros p' q' A'. apply ident_same; exact A'.
  - apply same_then; [apply mark_if_same; exact A|]. intros p' q' A'.
    destruct (keeps_quotes s); [apply alike_put; exact A'|apply ident_same; exact A'].
  - apply same_then; [apply mark_if_same; exact A|]. intros p' q' A'. apply ident_same; exact A'.
  - destruct (_ && _); [exact I|apply ident_same; exact A].
  - apply ident_same; exact A.
  - apply ident_same; exact A.
Qed.

Lemma two_same : forall s p q, alike p q ->
  same p q (Fine (write_str (ser_name s) (write_str "--" p))) (Fine (write_str (ser_name s) (write_str "--" q))).
Proof.
  intros s p q A.
  apply (same_then p q (Fine (write_str "--" p)) (Fine (write_str "--" q))
          (fun x => Fine (write_str (ser_name s) x)) (fun x => Fine (write_str (ser_name s) x))).
  - apply alike_put. exact A.
  - intros p' q' A'. apply alike_put. exact A'.
Qed.

Lemma dashed_ref_same : forall s f p q, alike p q ->
  same p q (write_dashed_reference hash32 modules s f p) (write_dashed_reference hash32 modules s f q).
Proof.
  intros s f p q A. unfold write_dashed_reference.
  pose proof (dashed_same s false) as D.
  destruct modules as [cs|]; [|apply D; exact A].
  destruct (cf_dashed (fst cs)); [|apply D; exact A].
  destruct f as [[|file|j]|].
  - apply two_same. exact A.
  - rewrite (alike_loc p q A). destruct (nth_error _ _); [|exact I]. destruct (hash_at_start _); [|exact I].
    set (h := hash_text _ false). clearbody h. set (e := (append "--" h, RDependency s file)). clearbody e.
    apply (same_then p q (Fine (set_refs p (e :: p_refs p))) (Fine (set_refs q (e :: p_refs q)))
            (fun x => Fine (write_str (ser_name h) (write_str "--" x)))
            (fun x => Fine (write_str (ser_name h) (write_str "--" x)))).
    + apply same_fine with (t := ""); [|apply adds_nil; reflexivity|apply adds_nil; reflexivity].
      destruct A. constructor. assumption.
    + intros p' q' A'. apply two_same. exact A'.
  - destruct (scoped_name _ _ _ _ _); [|exact I]. apply two_same. exact A.
  - apply same_then; [|intros p' q' A'; apply D; exact A'].
    rewrite (alike_loc p q A). apply mark_same. exact A.
Qed.

Lemma compose_one_same : forall cs i f id n p q, alike p q ->
  same p q (compose_one hash32 cs i f id n p) (compose_one hash32 cs i f id n q).
Proof.
  intros cs i f id n p q A. unfold compose_one. rewrite (alike_exports p q A).
  destruct f as [[|file|j]|]; [| |destruct (ex_get (p_exports q) (j, n)); [|apply same_id; exact A]|
                               destruct (scoped_name _ _ _ _ _); [|exact I]];
    (destruct (ex_get (p_exports q) (i, id)); [|exact I]);
    try (destruct (existsb _ _); [apply same_id; exact A|]); apply same_exports; exact A.
Qed.
Lemma compose_names_same : forall cs i f id ns p q, alike p q ->
  same p q (compose_names hash32 cs i f id ns p) (compose_names hash32 cs i f id ns q).
Proof.
  intros cs i f id. induction ns as [|n ns IH]; intros p q A; cbn [compose_names]; [apply same_id; exact A|].
  apply same_then; [apply compose_one_same; exact A|exact IH].
Qed.
Lemma handle_same : forall cs i f sels ns p q, alike p q ->
  same p q (handle_composes hash32 cs i f sels ns p) (handle_composes hash32 cs i f sels ns q).
Proof.
  intros cs i f. induction sels as [|[id|] sels IH]; intros ns p q A; cbn [handle_composes];
    [apply same_id; exact A| |exact I].
  apply same_then; [apply compose_names_same; exact A|]. intros p' q' A'. apply IH. exact A'.
Qed.

(** An operation that is not layout does the same in both modes. *)
Lemma content_same : forall m m' o p q, layout_op o = false -> alike p q ->
  same p q (run_op hash32 m modules remap o p) (run_op hash32 m' modules remap o q).
Proof.
  intros m m' o p q L A. destruct o; try discriminate; cbn [run_op].
  - apply alike_put. exact A.
  - unfold write_str_with_newlines. destruct (count_lines _ _ (p_line p) _ _) as [[a b] c].
    destruct (count_lines _ _ (p_line q) _ _) as [[a' b'] c']. apply alike_put. exact A.
  - apply char_same. exact A.
  - unfold indent_by. rewrite (alike_indent p q A). destruct (N.leb _ _); [|exact I].
    apply same_fine with (t := ""); [|apply adds_nil; reflexivity|apply adds_nil; reflexivity].
    destruct A. constructor. assumption.
  - unfold dedent_by. rewrite (alike_indent p q A). destruct (N.leb _ _); [|exact I].
    apply same_fine with (t := ""); [|apply adds_nil; reflexivity|apply adds_nil; reflexivity].
    destruct A. constructor. assumption.
  - unfold add_mapping. destruct (N.eqb _ _); [exact I|].
    destruct (remap loc) as [[o|]|];
      (apply same_fine with (t := ""); [|apply adds_nil; reflexivity|apply adds_nil; reflexivity]);
      destruct A as [? ? ? ? ? ? ? ? ms ms' ? ? E]; constructor; cbn; rewrite ?map_app, ?E; reflexivity.
  - apply site_same. exact A.
  - apply dashed_same. exact A.
  - apply dashed_ref_same. exact A.
  - unfold write_composes. destruct modules as [cs|]; [|apply same_id; exact A].
    rewrite (alike_indent p q A). destruct (N.ltb _ _); [exact I|]. apply handle_same. exact A.
Qed.

(** ** Layout operations *)

(** [p] is the minified printer and [q] the pretty one. *)
Definition related (p q : printer) : Prop := alike p q /\ inserted (p_out p) (p_out q).
Definition related_out (x y : outcome) : Prop :=
  match x, y with
  | Fine p, Fine q => related p q
  | Failed, Failed => True
  | Panicked, Panicked => True
  | _, _ => False
  end.

Lemma related_put : forall p q s t l c l' c', related p q -> inserted s t ->
  related (set_pos p (p_out p ++ s) l c) (set_pos q (p_out q ++ t) l' c').
Proof.
  intros p q s t l c l' c' [A J] K. split.
  - destruct A. constructor. assumption.
  - cbn. apply inserted_app; assumption.
Qed.
Lemma related_more : forall p q t l c, related p q -> inserted "" t ->
  related p (set_pos q (p_out q ++ t) l c).
Proof.
  intros p q t l c R K. pose proof (related_put p q "" t (p_line p) (p_col p) l c R K) as X.
  rewrite sapp_nil in X. destruct p; exact X.
Qed.
Lemma related_char : forall p q c, related p q -> related (write_char c p) (write_char c q).
Proof.
  intros p q c R. unfold write_char. destruct (String.eqb _ _); apply related_put; auto using inserted_refl.
Qed.
Lemma related_ws : forall p q, related p q -> related (whitespace true p) (whitespace false q).
Proof.
  intros p q R. unfold whitespace, write_char. cbn [String.eqb]. destruct (String.eqb _ _);
    (apply related_more; [exact R|]); apply (ins_blank 32); auto; constructor.
Qed.
Lemma spaces_blank : forall n, inserted "" (spaces n).
Proof. induction n; [constructor|]. apply (ins_blank 32); auto. Qed.
Lemma related_newline : forall p q, related p q -> related (newline true p) (newline false q).
Proof.
  intros p q R. unfold newline.
  assert (R1 : related p (write_char (one lf) q)).
  { unfold write_char. destruct (String.eqb _ _);
      (apply related_more; [exact R|]); apply (ins_blank 10); auto; constructor. }
  destruct (N.ltb _ _); [|exact R1]. unfold write_str. apply related_more; [exact R1|apply spaces_blank].
Qed.

Lemma modes_op : forall o p q, related p q ->
  related_out (run_op hash32 true modules remap o p) (run_op hash32 false modules remap o q).
Proof.
  intros o p q R. destruct (layout_op o) eqn:L.
  - destruct o; try discriminate; cbn [run_op related_out].
    + apply related_ws. exact R.
    + unfold delim. apply related_ws, related_char. destruct before; [apply related_ws|]; exact R.
    + apply related_newline. exact R.
  - destruct R as [A J]. pose proof (content_same true false o p q L A) as S.
    destruct (run_op hash32 true modules remap o p) as [p'| |], (run_op hash32 false modules remap o q) as [q'| |];
      cbn [same related_out] in *; try contradiction; auto.
    destruct S as (A' & t & T1 & T2). split; [exact A'|]. unfold adds in *. rewrite T1, T2.
    apply inserted_app; [exact J|apply inserted_refl].
Qed.

Lemma modes_run : forall l p q, related p q ->
  related_out (run hash32 true modules remap l p) (run hash32 false modules remap l q).
Proof.
  induction l as [|o l IH]; intros p q R; [exact R|]. cbn [run].
  pose proof (modes_op o p q R) as S.
  destruct (run_op hash32 true modules remap o p) as [p'| |], (run_op hash32 false modules remap o q) as [q'| |];
    cbn [related_out andthen] in *; try contradiction; auto.
Qed.

Theorem modes : forall l,
  match run hash32 true modules remap l new_printer, run hash32 false modules remap l new_printer with
  | Fine p, Fine q =>
      inserted (p_out p) (p_out q) /\ p_exports p = p_exports q /\ p_refs p = p_refs q /\
      p_indent p = p_indent q /\ map m_original (p_maps p) = map m_original (p_maps q)
  | Failed, Failed => True
  | Panicked, Panicked => True
  | _, _ => False
  end.
Proof.
  intros l. pose proof (modes_run l new_printer new_printer) as R.
  assert (R0 : related new_printer new_printer) by (split; [constructor; reflexivity|constructor]).
  specialize (R R0).
  destruct (run hash32 true modules remap l new_printer) as [p| |],
           (run hash32 false modules remap l new_printer) as [q| |]; cbn [related_out] in R; try contradiction; auto.
  destruct R as [A J]. apply shared_alike in A. unfold shared in A. injection A as E1 E2 E3 E4 E5. auto.
Qed.

(** The text of a content operation is the same in both modes, and it only
    adds to the output. *)
Theorem content_text : forall l1 o p q p' q',
  layout_op o = false ->
  run hash32 true modules remap l1 new_printer = Fine p ->
  run hash32 false modules remap l1 new_printer = Fine q ->
  run_op hash32 true modules remap o p = Fine p' ->
  run_op hash32 false modules remap o q = Fine q' ->
  exists t, p_out p' = p_out p ++ t /\ p_out q' = p_out q ++ t.
Proof.
  intros l1 o p q p' q' L E F G H. pose proof (modes_run l1 new_printer new_printer) as R.
  assert (R0 : related new_printer new_printer) by (split; [constructor; reflexivity|constructor]).
  specialize (R R0). rewrite E, F in R. destruct R as [A _].
  pose proof (content_same true false o p q L A) as S. rewrite G, H in S. cbn [same] in S.
  destruct S as (_ & t & T1 & T2). exists t. auto.
Qed.

(** ** Indentation *)

Lemma writes_fine : forall m o p, writes o = true ->
  exists q, run_op hash32 m modules remap o p = Fine q /\ p_indent q = p_indent p.
Proof.
  assert (C : forall c p, p_indent (write_char c p) = p_indent p).
  { intros c p. unfold write_char. destruct (String.eqb _ _); reflexivity. }
  assert (W : forall m p, p_indent (whitespace m p) = p_indent p).
  { intros m p. unfold whitespace. destruct m; [reflexivity|apply C]. }
  intros m o p H. destruct o; try discriminate; cbn [run_op]; eexists; (split; [reflexivity|]).
  - reflexivity.
  - unfold write_str_with_newlines. destruct (count_lines _ _ _ _ _) as [[a b] c]. reflexivity.
  - apply C.
  - apply W.
  - unfold delim. rewrite W, C. destruct before; [apply W|reflexivity].
  - unfold newline. destruct m; [reflexivity|]. destruct (N.ltb _ _); [exact (C (one lf) p)|apply C].
Qed.

Fixpoint block_size (b : block) : nat :=
  match b with Leaf _ => 1 | Nest l => S (fold_right (fun x n => block_size x + n) 0 l) end.

Lemma indent_block : forall m n b, block_size b <= n -> forall p, writing b = true ->
  (p_indent p + 2 * N.of_nat (depth b) <= 255)%N ->
  exists q, run hash32 m modules remap (flatten b) p = Fine q /\ p_indent q = p_indent p.
Proof.
  intros m. induction n as [|n IH]; intros b S p W D; [destruct b; cbn in S; lia|].
  destruct b as [o|l].
  - cbn [flatten run writing] in *. destruct (writes_fine m o p W) as (q & Q & I). rewrite Q. exists q. auto.
  - cbn [flatten depth writing block_size run run_op] in *. unfold indent_by.
    assert (L : N.leb (p_indent p + 2) 255 = true) by (apply N.leb_le; lia). rewrite L. cbn [andthen].
    set (p1 := set_indent p (p_indent p + 2)). rewrite run_app.
    assert (X : forall l p2, fold_right (fun x n => block_size x + n) 0 l <= n -> forallb writing l = true ->
              (p_indent p2 + 2 * N.of_nat (fold_right (fun x n => Nat.max (depth x) n) 0%nat l) <= 255)%N ->
              exists q, run hash32 m modules remap (fold_right (fun x r => (flatten x ++ r)%list) [] l) p2 = Fine q
                        /\ p_indent q = p_indent p2).
    { clear -IH. induction l as [|b l IHl]; intros p2 S W D; [exists p2; auto|].
      cbn [fold_right forallb] in *. apply andb_true_iff in W. destruct W as [W1 W2].
      rewrite run_app. destruct (IH b) with (p := p2) as (q1 & Q1 & I1); [lia|exact W1|lia|].
      rewrite Q1. cbn [andthen]. destruct (IHl q1) as (q & Q & I); [lia|exact W2|rewrite I1; lia|].
      exists q. rewrite Q, I, I1. auto. }
    destruct (X l p1) as (q & Q & I); [lia|exact W| |].
    { subst p1. cbn [p_indent set_indent]. lia. }
    rewrite Q. cbn [andthen run run_op]. unfold dedent_by.
    assert (P1 : p_indent p1 = (p_indent p + 2)%N) by reflexivity.
    assert (L2 : N.leb 2 (p_indent q) = true) by (apply N.leb_le; lia). rewrite L2. cbn [andthen].
    eexists. split; [reflexivity|]. cbn [p_indent set_indent]. lia.
Qed.

Theorem indentation : forall m b p, writing b = true ->
  (p_indent p + 2 * N.of_nat (depth b) <= 255)%N ->
  exists q, run hash32 m modules remap (flatten b) p = Fine q /\ p_indent q = p_indent p.
Proof. intros m b p. apply (indent_block m (block_size b) b). apply le_n. Qed.

End Modes.
