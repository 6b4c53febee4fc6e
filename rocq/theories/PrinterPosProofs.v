(** Positions and layout. *)
From Coq Require Import List Bool String Ascii PeanoNat NArith Lia.
From Verif Require Import MediaModel IdentModel IdentSpec IdentProofs PatternModel PatternSpec PatternProofs.
From Verif Require Import PrinterModel PrinterSpec.
Import ListNotations.
Local Open Scope nat_scope.
Local Open Scope bool_scope.
Local Open Scope list_scope.
Local Open Scope string_scope.

(** ** Text *)

Definition no_lf (s : string) : bool := negb (occurs lf s).

Lemma occurs_app : forall c a b, occurs c (a ++ b) = occurs c a || occurs c b.
Proof. induction a as [|d a IH]; intros b; cbn; [reflexivity|]. rewrite IH. apply orb_assoc. Qed.

Lemma lf_code : forall c, Nat.eqb (nat_of_ascii c) 10 = Ascii.eqb c lf.
Proof. intros c. destruct c as [[] [] [] [] [] [] [] []]; reflexivity. Qed.
Lemma lf_sym : forall c, Ascii.eqb lf c = Ascii.eqb c lf.
Proof. intros c. apply Ascii.eqb_sym. Qed.

Lemma lines_app : forall a b, lines (a ++ b) = (lines a + lines b)%N.
Proof. induction a as [|c a IH]; intros b; cbn [append lines]; [reflexivity|]. rewrite IH. lia. Qed.

Lemma lines_none : forall s, occurs lf s = false -> lines s = 0%N.
Proof.
  induction s as [|c s IH]; intros H; cbn [lines occurs] in *; [reflexivity|].
  apply orb_false_iff in H. destruct H as [H1 H2]. rewrite lf_code, <- lf_sym, H1, IH by exact H2. reflexivity.
Qed.

Lemma last_line_none : forall s, occurs lf s = false -> last_line s = s.
Proof.
  intros [|c s] H; [reflexivity|]. cbn [last_line occurs] in *. change (ascii_of_nat 10) with lf.
  apply orb_false_iff in H. destruct H as [H1 H2]. rewrite H2, lf_code, <- lf_sym, H1. reflexivity.
Qed.

Lemma last_line_app : forall a b, occurs lf b = false -> last_line (a ++ b) = last_line a ++ b.
Proof.
  induction a as [|c a IH]; intros b H; cbn [append last_line]; [apply last_line_none; exact H|].
  change (ascii_of_nat 10) with lf. rewrite occurs_app, H, orb_false_r.
  destruct (occurs lf a) eqn:E; [apply IH; exact H|].
  destruct (Nat.eqb (nat_of_ascii c) 10); reflexivity.
Qed.

Lemma last_line_app_lf : forall a b, occurs lf b = true -> last_line (a ++ b) = last_line b.
Proof.
  induction a as [|c a IH]; intros b H; cbn [append last_line]; [reflexivity|].
  change (ascii_of_nat 10) with lf. rewrite occurs_app, H, orb_true_r. apply IH. exact H.
Qed.

Lemma len_app : forall a b, len (a ++ b) = (len a + len b)%N.
Proof. intros. unfold len. rewrite slen_app. lia. Qed.

Lemma column_app : forall a b, occurs lf b = false -> column (a ++ b) = (column a + len b)%N.
Proof. intros a b H. unfold column. rewrite last_line_app by exact H. rewrite slen_app. unfold len. lia. Qed.

Lemma column_app_lf : forall a b, occurs lf b = true -> column (a ++ b) = column b.
Proof. intros a b H. unfold column. rewrite last_line_app_lf by exact H. reflexivity. Qed.

(** ** Positions *)

Definition pos_ok (p : printer) : Prop := p_line p = lines (p_out p) /\ p_col p = column (p_out p).

Lemma fine_inj : forall p q, Fine p = Fine q -> p = q.
Proof. intros p q E. injection E. auto. Qed.

Lemma put_ok : forall p s, occurs lf s = false -> pos_ok p ->
  pos_ok (set_pos p (p_out p ++ s) (p_line p) (p_col p + len s)).
Proof.
  intros p s H [L C]. unfold pos_ok. cbn. rewrite lines_app, (lines_none s H), column_app by exact H.
  split; [lia|]. rewrite C. reflexivity.
Qed.

Lemma write_str_ok : forall p s, occurs lf s = false -> pos_ok p -> pos_ok (write_str s p).
Proof. intros. apply put_ok; assumption. Qed.

Lemma char_single : forall c, String.length c = 1 -> exists a, c = one a.
Proof. intros [|a [|b c]] H; try discriminate. exists a. reflexivity. Qed.

Lemma write_char_ok : forall p c, String.length c = 1 -> pos_ok p -> pos_ok (write_char c p).
Proof.
  intros p c H O. destruct (char_single c H) as [a ->]. unfold write_char.
  destruct (String.eqb_spec (one a) (one lf)) as [E|E].
  - destruct O as [L C]. rewrite E. unfold pos_ok. cbn [p_line p_col p_out set_pos]. split.
    + rewrite lines_app, L. reflexivity.
    + rewrite column_app_lf; reflexivity.
  - change 1%N with (len (one a)). apply put_ok; [|exact O].
    unfold one. cbn [occurs]. rewrite orb_false_r. rewrite lf_sym. apply Ascii.eqb_neq. intros ->. congruence.
Qed.

Lemma last_line_len : forall s, String.length (last_line s) <= String.length s.
Proof.
  induction s as [|c s IH]; cbn [last_line]; [lia|].
  destruct (occurs (ascii_of_nat 10) s); [cbn; lia|].
  destruct (Nat.eqb (nat_of_ascii c) 10); cbn; lia.
Qed.

Lemma count_none : forall s idx line col last, occurs lf s = false ->
  count_lines s idx line col last = (line, col, last).
Proof.
  induction s as [|c s IH]; intros idx line col last H; cbn [count_lines]; [reflexivity|].
  cbn [occurs] in H. apply orb_false_iff in H. destruct H as [H1 H2]. rewrite <- lf_sym, H1. apply IH. exact H2.
Qed.

Lemma triple : forall (a a' b : N) (c c' : nat), a = a' -> c = c' -> (a, b, c) = (a', b, c').
Proof. intros; subst; reflexivity. Qed.

Lemma count_some : forall s idx line col last, occurs lf s = true ->
  exists k, count_lines s idx line col last = ((line + lines s)%N, 0%N, idx + k) /\
    k + String.length (last_line s) = String.length s.
Proof.
  induction s as [|c s IH]; intros idx line col last H; [discriminate|].
  cbn [count_lines lines last_line occurs] in *. change (ascii_of_nat 10) with lf. rewrite lf_code, <- lf_sym in *.
  destruct (Ascii.eqb lf c) eqn:E.
  - destruct (occurs lf s) eqn:O.
    + destruct (IH (S idx) (line + 1)%N 0%N (S idx) eq_refl) as (k & K & L). exists (S k). rewrite K. split.
      * apply triple; lia.
      * cbn. lia.
    + exists 1. rewrite count_none by exact O. rewrite lines_none by exact O. split.
      * apply triple; lia.
      * cbn. lia.
  - cbn [orb] in H. rewrite H. destruct (IH (S idx) line col last H) as (k & K & L). exists (S k). rewrite K. split.
    + apply triple; lia.
    + cbn. lia.
Qed.

Lemma write_lines_ok : forall p s, pos_ok p -> pos_ok (write_str_with_newlines s p).
Proof.
  intros p s O. unfold write_str_with_newlines. destruct (occurs lf s) eqn:H.
  - destruct (count_some s 0 (p_line p) (p_col p) 0 H) as (k & K & L). rewrite K.
    destruct O as [OL OC]. unfold pos_ok. cbn [p_line p_col p_out set_pos]. split.
    + rewrite lines_app, OL. reflexivity.
    + rewrite column_app_lf by exact H. unfold column, len. lia.
  - rewrite count_none by exact H. rewrite N.sub_0_r. apply put_ok; assumption.
Qed.

Lemma spaces_lf : forall n, occurs lf (spaces n) = false.
Proof. induction n; [reflexivity|]. cbn. exact IHn. Qed.

(** Escaped text has no line feed. *)
Lemma escape_byte_lf : forall c, occurs lf (escape_byte c) = false.
Proof. intros c. destruct c as [[] [] [] [] [] [] [] []]; reflexivity. Qed.
Lemma hex_escape_lf : forall c, is_digit c = true -> occurs lf (hex_escape c) = false.
Proof. intros c. destruct c as [[] [] [] [] [] [] [] []]; vm_compute (is_digit _); intros H; try discriminate; reflexivity. Qed.
Lemma ser_name_lf : forall s, occurs lf (ser_name s) = false.
Proof. induction s as [|c s IH]; [reflexivity|]. cbn [ser_name]. rewrite occurs_app, escape_byte_lf, IH. reflexivity. Qed.
Lemma ser_start_lf : forall s, occurs lf (ser_start s) = false.
Proof.
  intros [|c s]; [reflexivity|]. cbn [ser_start]. destruct (is_digit c) eqn:D; [|apply ser_name_lf].
  rewrite occurs_app, hex_escape_lf, ser_name_lf by exact D. reflexivity.
Qed.
Lemma ser_ident_lf : forall s, occurs lf (ser_ident s) = false.
Proof.
  intros [|c [|d s]]; unfold ser_ident; [reflexivity| |].
  - destruct (Ascii.eqb c dash); [reflexivity|apply ser_start_lf].
  - destruct (Ascii.eqb c dash); [|apply ser_start_lf].
    destruct (Ascii.eqb d dash); cbn [occurs]; [rewrite ser_name_lf|rewrite ser_start_lf]; reflexivity.
Qed.

(** Names that need no escape are printed as they are. *)
Lemma escape_plain : forall c, name_char c = true -> escape_byte c = one c.
Proof. intros c. destruct c as [[] [] [] [] [] [] [] []]; vm_compute (name_char _); intros H; try discriminate; reflexivity. Qed.
Lemma ser_name_plain : forall s, all_chars name_char s = true -> ser_name s = s.
Proof.
  induction s as [|c s IH]; intros H; [reflexivity|]. cbn [all_chars ser_name] in *.
  apply andb_true_iff in H. destruct H as [H1 H2]. rewrite escape_plain, IH by assumption. reflexivity.
Qed.
Lemma digit_not_start : forall c, is_digit c = true -> name_start c = false /\ is_dash c = false /\ is_backslash c = false.
Proof. intros c. destruct c as [[] [] [] [] [] [] [] []]; vm_compute (is_digit _); intros H; try discriminate; auto. Qed.
Lemma dash_is : forall c, Ascii.eqb c dash = is_dash c.
Proof. intros c. destruct c as [[] [] [] [] [] [] [] []]; reflexivity. Qed.
Lemma ser_ident_plain : forall s, starts_ident s = true -> all_chars name_char s = true -> ser_ident s = s.
Proof.
  intros [|c [|d s]] St H; unfold ser_ident; [reflexivity| |]; rewrite dash_is; cbn [starts_ident] in St.
  - destruct (is_dash c) eqn:D; [discriminate|]. unfold ser_start.
    destruct (is_digit c) eqn:G; [|apply ser_name_plain; exact H].
    destruct (digit_not_start c G) as (A & _ & B). rewrite A, B in St. discriminate.
  - destruct (is_dash c) eqn:D.
    + pose proof D as D'. rewrite <- dash_is in D'. apply Ascii.eqb_eq in D'. subst c.
      cbn [all_chars] in H. apply andb_true_iff in H. destruct H as [_ H].
      rewrite dash_is. destruct (is_dash d) eqn:E.
      * rewrite <- dash_is in E. apply Ascii.eqb_eq in E. subst d.
        apply andb_true_iff in H. destruct H as [_ H]. rewrite ser_name_plain by exact H. reflexivity.
      * unfold ser_start. destruct (is_digit d) eqn:G.
        -- destruct (digit_not_start d G) as (A & _ & B). rewrite A, B in St. discriminate.
        -- rewrite ser_name_plain; [reflexivity|exact H].
    + unfold ser_start. destruct (is_digit c) eqn:G; [|apply ser_name_plain; exact H].
      destruct (digit_not_start c G) as (A & _ & B). rewrite A, B in St. discriminate.
Qed.

(** ** Pieces *)

Fixpoint pieces_text (first : bool) (l : list string) : string :=
  match l with
  | [] => ""
  | s :: r => (if first then ser_ident s else ser_name s) ++ pieces_text false r
  end.
Fixpoint pieces_len (l : list string) : N :=
  match l with [] => 0 | s :: r => (len s + pieces_len r)%N end.

Lemma write_pieces_eq : forall l first p,
  write_pieces first l p = set_pos p (p_out p ++ pieces_text first l) (p_line p) (p_col p + pieces_len l).
Proof.
  induction l as [|s l IH]; intros first p; cbn [write_pieces pieces_text pieces_len].
  - rewrite sapp_nil, N.add_0_r. destruct p; reflexivity.
  - rewrite IH. unfold set_pos. cbn. rewrite sapp_assoc, N.add_assoc. reflexivity.
Qed.

Lemma pieces_text_lf : forall l first, occurs lf (pieces_text first l) = false.
Proof.
  induction l as [|s l IH]; intros first; [reflexivity|]. cbn [pieces_text]. rewrite occurs_app, IH.
  destruct first; [rewrite ser_ident_lf|rewrite ser_name_lf]; reflexivity.
Qed.

Lemma continued_len : forall l, continues_unescaped l = true -> len (pieces_text false l) = pieces_len l.
Proof.
  induction l as [|s l IH]; intros H; [reflexivity|]. cbn [pieces_text pieces_len] in *.
  unfold continues_unescaped in *. cbn [forallb] in H. apply andb_true_iff in H. destruct H as [H1 H2].
  rewrite len_app, IH, ser_name_plain by assumption. reflexivity.
Qed.
Lemma unescaped_len : forall l, needs_no_escape l = true -> len (pieces_text true l) = pieces_len l.
Proof.
  intros [|s l] H; [reflexivity|]. cbn [needs_no_escape pieces_text pieces_len] in *.
  apply andb_true_iff in H. destruct H as [H1 H2]. apply andb_true_iff in H1. destruct H1 as [H0 H1].
  rewrite len_app, ser_ident_plain by assumption. rewrite continued_len by exact H2. reflexivity.
Qed.

(** ** Which operations keep the position right *)

Section Tidy.
Variable hash32 : string -> N.
Variable minify : bool.
Variable modules : option (config * list source).
Variable remap : location -> option (option location).
Notation plain_for := (PrinterSpec.plain_for hash32 modules).
Notation tidy := (PrinterSpec.tidy hash32 modules).
Notation maps_of := (PrinterSpec.maps_of hash32 minify modules remap).

Lemma lower_lf : forall s, occurs lf (lower s) = occurs lf s.
Proof.
  induction s as [|c s IH]; [reflexivity|]. cbn [lower occurs]. rewrite IH. f_equal.
  destruct c as [[] [] [] [] [] [] [] []]; reflexivity.
Qed.
Lemma ieq_lf : forall s k, ieq s k = true -> occurs lf k = false -> occurs lf s = false.
Proof.
  intros s k E H. unfold ieq in E. apply String.eqb_eq in E. rewrite <- lower_lf, E, lower_lf. exact H.
Qed.
Lemma keeps_lf : forall s, keeps_quotes s = true -> occurs lf (quoted s) = false.
Proof.
  intros s H. unfold keeps_quotes in H. apply existsb_exists in H. destruct H as (k & I & E).
  assert (K : occurs lf s = false).
  { apply (ieq_lf s k E). cbn in I. repeat (destruct I as [<-|I]; [reflexivity|]). destruct I. }
  unfold quoted. cbn [occurs]. rewrite occurs_app, K. reflexivity.
Qed.

Lemma set_exports_ok : forall p e, pos_ok p -> pos_ok (set_exports p e).
Proof. intros p e H. exact H. Qed.

Lemma add_entry_ok : forall cs a b c i p q, add_entry hash32 cs a b c i p = Fine q -> pos_ok p -> pos_ok q.
Proof.
  intros cs a b c i p q E O. unfold add_entry in E. destruct (ex_get _ _); [injection E as <-; exact O|].
  destruct (scoped_name _ _ _ _ _); [|discriminate]. injection E as <-. exact O.
Qed.
Lemma mark_ok : forall cs a b c i p q, mark hash32 cs a b c i p = Fine q -> pos_ok p -> pos_ok q.
Proof.
  intros cs a b c i p q E O. unfold mark in E. destruct (ex_get _ _); [injection E as <-; exact O|].
  destruct (scoped_name _ _ _ _ _); [|discriminate]. injection E as <-. exact O.
Qed.

Lemma write_ident_ok : forall s h p q, plain_for true s -> write_ident hash32 modules s h p = Fine q -> pos_ok p -> pos_ok q.
Proof.
  intros s h p q T E O. unfold write_ident in E. unfold PrinterSpec.plain_for in T.
  destruct h, modules as [cs|]; try (injection E as <-; apply write_str_ok; [apply ser_ident_lf|exact O]).
  destruct (pieces hash32 cs (l_source (p_loc p)) s) as [l|] eqn:P; [|discriminate].
  apply add_entry_ok in E; [exact E|]. rewrite write_pieces_eq, <- unescaped_len by (eapply T; exact P).
  apply put_ok; [apply pieces_text_lf|exact O].
Qed.

Lemma write_dashed_ok : forall s d p q, plain_for false (undash s) ->
  write_dashed_ident hash32 modules s d p = Fine q -> pos_ok p -> pos_ok q.
Proof.
  intros s d p q T E O. unfold write_dashed_ident in E. unfold PrinterSpec.plain_for in T.
  assert (O1 : pos_ok (write_str "--" p)) by (apply write_str_ok; [reflexivity|exact O]).
  destruct modules as [cs|].
  - destruct (cf_dashed (fst cs)); [|injection E as <-; apply write_str_ok; [apply ser_name_lf|exact O1]].
    destruct (pieces hash32 cs (l_source (p_loc p)) (undash s)) as [l|] eqn:P; [|discriminate].
    assert (O2 : pos_ok (write_pieces false l (write_str "--" p))).
    { rewrite write_pieces_eq, <- continued_len by (eapply T; exact P).
      apply put_ok; [apply pieces_text_lf|exact O1]. }
    destruct d; [|injection E as <-; exact O2]. apply add_entry_ok in E; [exact E|exact O2].
  - injection E as <-. apply write_str_ok; [apply ser_name_lf|exact O1].
Qed.

Lemma mark_if_ok : forall b s p q, mark_if hash32 modules b s p = Fine q -> pos_ok p -> pos_ok q.
Proof.
  intros b s p q E O. unfold mark_if in E. destruct b, modules as [cs|]; try (injection E as <-; exact O).
  apply mark_ok in E; [exact E|exact O].
Qed.

Lemma write_site_ok : forall k s p q, plain_for true s ->
  write_site hash32 modules k s p = Fine q -> pos_ok p -> pos_ok q.
Proof.
  intros k s p q T E O.
  assert (C : forall n, pos_ok (write_char (one (ch n)) p)) by (intros; apply write_char_ok; [reflexivity|exact O]).
  assert (W : forall h x y, write_ident hash32 modules s h x = Fine y -> pos_ok x -> pos_ok y)
    by (intros h x y; apply write_ident_ok; exact T).
  destruct k; cbn [write_site] in E; unfold write_custom in E.
  - exact (W _ _ _ E (C 46)).
  - exact (W _ _ _ E (C 35)).
  - exact (W _ _ _ E O).
  - destruct (keeps_quotes s) eqn:K; [injection E as <-; apply write_str_ok; [apply keeps_lf; exact K|exact O]|].
    exact (W _ _ _ E O).
  - destruct (mark_if _ _ _ _ _) as [p1| |] eqn:M; try discriminate. cbn [andthen] in E.
    exact (W _ _ _ E (mark_if_ok _ _ _ _ M O)).
  - destruct (mark_if _ _ _ _ _) as [p1| |] eqn:M; try discriminate. cbn [andthen] in E.
    pose proof (mark_if_ok _ _ _ _ M O) as O1.
    destruct (keeps_quotes s) eqn:K; [injection E as <-; apply write_str_ok; [apply keeps_lf; exact K|exact O1]|].
    exact (W _ _ _ E O1).
  - destruct (mark_if _ _ _ _ _) as [p1| |] eqn:M; try discriminate. cbn [andthen] in E.
    exact (W _ _ _ E (mark_if_ok _ _ _ _ M O)).
  - destruct (_ && _); [discriminate|]. exact (W _ _ _ E O).
  - exact (W _ _ _ E O).
  - exact (W _ _ _ E O).
Qed.

Lemma compose_one_ok : forall cs i f id n p q, compose_one hash32 cs i f id n p = Fine q -> pos_ok p -> pos_ok q.
Proof.
  intros cs i f id n p q E O. unfold compose_one in E.
  destruct f as [[|file|j]|]; [| |destruct (ex_get (p_exports p) (j, n)); [|injection E as <-; exact O]|
                               destruct (scoped_name _ _ _ _ _); [|discriminate]];
    (destruct (ex_get (p_exports p) (i, id)); [|discriminate]);
    try (destruct (existsb _ _); injection E as <-; exact O).
  injection E as <-. exact O.
Qed.
Lemma compose_names_ok : forall cs i f id ns p q, compose_names hash32 cs i f id ns p = Fine q -> pos_ok p -> pos_ok q.
Proof.
  intros cs i f id. induction ns as [|n ns IH]; intros p q E O; cbn [compose_names] in E; [injection E as <-; exact O|].
  destruct (compose_one _ _ _ _ _ _ _) as [p1| |] eqn:C; try discriminate. cbn [andthen] in E.
  exact (IH _ _ E (compose_one_ok _ _ _ _ _ _ _ C O)).
Qed.
Lemma handle_composes_ok : forall cs i f sels ns p q, handle_composes hash32 cs i f sels ns p = Fine q -> pos_ok p -> pos_ok q.
Proof.
  intros cs i f. induction sels as [|[id|] sels IH]; intros ns p q E O; cbn [handle_composes] in E;
    [injection E as <-; exact O| |discriminate].
  destruct (compose_names _ _ _ _ _ _ _) as [p1| |] eqn:C; try discriminate. cbn [andthen] in E.
  exact (IH _ _ _ E (compose_names_ok _ _ _ _ _ _ _ C O)).
Qed.

Lemma whitespace_ok : forall p, pos_ok p -> pos_ok (whitespace minify p).
Proof. intros p O. unfold whitespace. destruct minify; [exact O|]. apply write_char_ok; [reflexivity|exact O]. Qed.

Lemma dashed_ref_ok : forall s f p q, plain_for false (undash s) ->
  write_dashed_reference hash32 modules s f p = Fine q -> pos_ok p -> pos_ok q.
Proof.
  intros s f p q T E O. unfold write_dashed_reference in E.
  assert (W : forall t x, pos_ok x -> pos_ok (write_str (ser_name t) (write_str "--" x))).
  { intros t x Ox. apply write_str_ok; [apply ser_name_lf|]. apply write_str_ok; [reflexivity|exact Ox]. }
  assert (D : forall x, write_dashed_ident hash32 modules s false x = Fine q -> pos_ok x -> pos_ok q)
    by (intros x; apply write_dashed_ok; exact T).
  destruct modules as [cs|]; [|exact (D _ E O)].
  destruct (cf_dashed (fst cs)); [|exact (D _ E O)].
  destruct f as [[|file|j]|].
  - injection E as <-. apply W. exact O.
  - destruct (nth_error _ _); [|discriminate]. destruct (hash_at_start _); [|discriminate].
    apply fine_inj in E. subst q. apply W. exact O.
  - destruct (scoped_name _ _ _ _ _); [|discriminate]. injection E as <-. apply W. exact O.
  - destruct (mark _ _ _ _ _ _ _) as [p1| |] eqn:M; try discriminate. cbn [andthen] in E.
    exact (D _ E (mark_ok _ _ _ _ _ _ _ M O)).
Qed.

Lemma run_op_ok : forall o p q, tidy o -> run_op hash32 minify modules remap o p = Fine q -> pos_ok p -> pos_ok q.
Proof.
  intros o p q T E O. destruct o; cbn [run_op tidy] in *.
  - injection E as <-. apply write_str_ok; assumption.
  - injection E as <-. apply write_lines_ok; assumption.
  - injection E as <-. apply write_char_ok; assumption.
  - injection E as <-. apply whitespace_ok; assumption.
  - injection E as <-. unfold delim. apply whitespace_ok, write_char_ok; [exact T|].
    destruct before; [apply whitespace_ok|]; exact O.
  - injection E as <-. unfold newline. destruct minify; [exact O|].
    assert (O1 : pos_ok (write_char (one lf) p)) by (apply write_char_ok; [reflexivity|exact O]).
    destruct (N.ltb 0 _); [|exact O1]. apply write_str_ok; [apply spaces_lf|exact O1].
  - unfold indent_by in E. destruct (N.leb _ _); [|discriminate]. injection E as <-. exact O.
  - unfold dedent_by in E. destruct (N.leb _ _); [|discriminate]. injection E as <-. exact O.
  - unfold add_mapping in E. destruct (N.eqb _ _); [discriminate|].
    destruct (remap loc) as [[o|]|]; injection E as <-; exact O.
  - eapply write_site_ok; eassumption.
  - eapply write_dashed_ok; eassumption.
  - eapply dashed_ref_ok; eassumption.
  - unfold write_composes in E. destruct modules as [cs|]; [|injection E as <-; exact O].
    destruct (N.ltb _ _); [discriminate|]. eapply handle_composes_ok; eassumption.
Qed.

Lemma run_ok : forall l p q, Forall tidy l -> run hash32 minify modules remap l p = Fine q -> pos_ok p -> pos_ok q.
Proof.
  induction l as [|o l IH]; intros p q T E O; cbn [run] in E; [injection E as <-; exact O|].
  inversion T; subst. destruct (run_op _ _ _ _ o p) as [p1| |] eqn:R; try discriminate. cbn [andthen] in E.
  eapply IH; [assumption|exact E|]. eapply run_op_ok; eassumption.
Qed.

Theorem positions : forall l p, Forall tidy l -> run hash32 minify modules remap l new_printer = Fine p ->
  p_line p = lines (p_out p) /\ p_col p = column (p_out p).
Proof. intros l p T E. apply (run_ok l new_printer p T E). split; reflexivity. Qed.

(** ** Mappings *)

Lemma run_app : forall l1 l2 p, run hash32 minify modules remap (l1 ++ l2)%list p =
  andthen (run hash32 minify modules remap l1 p) (run hash32 minify modules remap l2).
Proof.
  induction l1 as [|o l1 IH]; intros l2 p; [reflexivity|]. cbn [app run].
  destruct (run_op _ _ _ _ o p) as [p1| |]; cbn [andthen]; [apply IH|reflexivity|reflexivity].
Qed.

Lemma set_pos_maps : forall p o l c, p_maps (set_pos p o l c) = p_maps p.
Proof. reflexivity. Qed.
Lemma add_entry_maps : forall cs a b c i p q, add_entry hash32 cs a b c i p = Fine q -> p_maps q = p_maps p.
Proof.
  intros cs a b c i p q E. unfold add_entry in E. destruct (ex_get _ _); [injection E as <-; reflexivity|].
  destruct (scoped_name _ _ _ _ _); [|discriminate]. injection E as <-. reflexivity.
Qed.
Lemma mark_maps : forall cs a b c i p q, mark hash32 cs a b c i p = Fine q -> p_maps q = p_maps p.
Proof.
  intros cs a b c i p q E. unfold mark in E. destruct (ex_get _ _); [injection E as <-; reflexivity|].
  destruct (scoped_name _ _ _ _ _); [|discriminate]. injection E as <-. reflexivity.
Qed.
Lemma write_pieces_maps : forall l f p, p_maps (write_pieces f l p) = p_maps p.
Proof. intros. rewrite write_pieces_eq. reflexivity. Qed.
Lemma write_char_maps : forall c p, p_maps (write_char c p) = p_maps p.
Proof. intros. unfold write_char. destruct (String.eqb _ _); reflexivity. Qed.
Lemma whitespace_maps : forall p, p_maps (whitespace minify p) = p_maps p.
Proof. intros. unfold whitespace. destruct minify; [reflexivity|apply write_char_maps]. Qed.
Lemma write_ident_maps : forall s h p q, write_ident hash32 modules s h p = Fine q -> p_maps q = p_maps p.
Proof.
  intros s h p q E. unfold write_ident in E.
  destruct h, modules as [cs|]; try (injection E as <-; reflexivity).
  destruct (pieces _ _ _ _) as [l|]; [|discriminate]. apply add_entry_maps in E. rewrite E. apply write_pieces_maps.
Qed.
Lemma write_dashed_maps : forall s d p q, write_dashed_ident hash32 modules s d p = Fine q -> p_maps q = p_maps p.
Proof.
  intros s d p q E. unfold write_dashed_ident in E. destruct modules as [cs|]; [|injection E as <-; reflexivity].
  destruct (cf_dashed _); [|injection E as <-; reflexivity].
  destruct (pieces _ _ _ _) as [l|]; [|discriminate].
  destruct d; [apply add_entry_maps in E; rewrite E|injection E as <-]; rewrite write_pieces_maps; reflexivity.
Qed.
Lemma mark_if_maps : forall b s p q, mark_if hash32 modules b s p = Fine q -> p_maps q = p_maps p.
Proof.
  intros b s p q E. unfold mark_if in E. destruct b, modules as [cs|]; try (injection E as <-; reflexivity).
  apply mark_maps in E. exact E.
Qed.
Lemma write_site_maps : forall k s p q, write_site hash32 modules k s p = Fine q -> p_maps q = p_maps p.
Proof.
  intros k s p q E. destruct k; cbn [write_site] in E; unfold write_custom in E.
  - apply write_ident_maps in E. rewrite E. apply write_char_maps.
  - apply write_ident_maps in E. rewrite E. apply write_char_maps.
  - apply write_ident_maps in E. exact E.
  - destruct (keeps_quotes s); [injection E as <-; reflexivity|]. apply write_ident_maps in E. exact E.
  - destruct (mark_if _ _ _ _ _) as [p1| |] eqn:M; try discriminate. cbn [andthen] in E.
    apply write_ident_maps in E. apply mark_if_maps in M. congruence.
  - destruct (mark_if _ _ _ _ _) as [p1| |] eqn:M; try discriminate. cbn [andthen] in E. apply mark_if_maps in M.
    destruct (keeps_quotes s); [injection E as <-; exact M|]. apply write_ident_maps in E. congruence.
  - destruct (mark_if _ _ _ _ _) as [p1| |] eqn:M; try discriminate. cbn [andthen] in E.
    apply write_ident_maps in E. apply mark_if_maps in M. congruence.
  - destruct (_ && _); [discriminate|]. apply write_ident_maps in E. exact E.
  - apply write_ident_maps in E. exact E.
  - apply write_ident_maps in E. exact E.
Qed.
Lemma dashed_ref_maps : forall s f p q, write_dashed_reference hash32 modules s f p = Fine q -> p_maps q = p_maps p.
Proof.
  intros s f p q E. unfold write_dashed_reference in E.
  destruct modules as [cs|] eqn:Md; [|rewrite <- Md in E; apply write_dashed_maps in E; exact E].
  destruct (cf_dashed (fst cs)); [|rewrite <- Md in E; apply write_dashed_maps in E; exact E].
  destruct f as [[|file|j]|].
  - injection E as <-. reflexivity.
  - destruct (nth_error _ _); [|discriminate]. destruct (hash_at_start _); [|discriminate].
    apply fine_inj in E. subst q. reflexivity.
  - destruct (scoped_name _ _ _ _ _); [|discriminate]. injection E as <-. reflexivity.
  - destruct (mark _ _ _ _ _ _ _) as [p1| |] eqn:M; try discriminate. cbn [andthen] in E.
    rewrite <- Md in E. apply write_dashed_maps in E. apply mark_maps in M. congruence.
Qed.
Lemma compose_one_maps : forall cs i f id n p q, compose_one hash32 cs i f id n p = Fine q -> p_maps q = p_maps p.
Proof.
  intros cs i f id n p q E. unfold compose_one in E.
  destruct f as [[|file|j]|]; [| |destruct (ex_get (p_exports p) (j, n)); [|injection E as <-; reflexivity]|
                               destruct (scoped_name _ _ _ _ _); [|discriminate]];
    (destruct (ex_get (p_exports p) (i, id)); [|discriminate]);
    try (destruct (existsb _ _); injection E as <-; reflexivity).
  injection E as <-. reflexivity.
Qed.
Lemma compose_names_maps : forall cs i f id ns p q, compose_names hash32 cs i f id ns p = Fine q -> p_maps q = p_maps p.
Proof.
  intros cs i f id. induction ns as [|n ns IH]; intros p q E; cbn [compose_names] in E; [injection E as <-; reflexivity|].
  destruct (compose_one _ _ _ _ _ _ _) as [p1| |] eqn:C; try discriminate. cbn [andthen] in E.
  apply IH in E. apply compose_one_maps in C. congruence.
Qed.
Lemma handle_composes_maps : forall cs i f sels ns p q, handle_composes hash32 cs i f sels ns p = Fine q -> p_maps q = p_maps p.
Proof.
  intros cs i f. induction sels as [|[id|] sels IH]; intros ns p q E; cbn [handle_composes] in E;
    [injection E as <-; reflexivity| |discriminate].
  destruct (compose_names _ _ _ _ _ _ _) as [p1| |] eqn:C; try discriminate. cbn [andthen] in E.
  apply IH in E. apply compose_names_maps in C. congruence.
Qed.

Definition new_maps (o : op) (p : printer) : list mapping :=
  match o with
  | AddMapping loc =>
      match original remap loc with Some i => [mkmap (p_line p) (p_col p) i] | None => [] end
  | _ => []
  end.

Lemma run_op_maps : forall o p q, run_op hash32 minify modules remap o p = Fine q ->
  p_maps q = (p_maps p ++ new_maps o p)%list.
Proof.
  intros o p q E. destruct o; cbn [run_op new_maps] in *; rewrite ?app_nil_r.
  - injection E as <-. reflexivity.
  - injection E as <-. unfold write_str_with_newlines. destruct (count_lines _ _ _ _ _) as [[a b] c]. reflexivity.
  - injection E as <-. apply write_char_maps.
  - injection E as <-. apply whitespace_maps.
  - injection E as <-. unfold delim. rewrite whitespace_maps, write_char_maps.
    destruct before; [apply whitespace_maps|reflexivity].
  - injection E as <-. unfold newline. destruct minify; [reflexivity|].
    destruct (N.ltb 0 _); exact (write_char_maps (one lf) p).
  - unfold indent_by in E. destruct (N.leb _ _); [|discriminate]. injection E as <-. reflexivity.
  - unfold dedent_by in E. destruct (N.leb _ _); [|discriminate]. injection E as <-. reflexivity.
  - unfold add_mapping in E. unfold original. destruct (N.eqb _ _); [discriminate|].
    destruct (remap loc) as [[o|]|]; injection E as <-; cbn [p_maps]; rewrite ?app_nil_r; reflexivity.
  - apply write_site_maps in E. exact E.
  - apply write_dashed_maps in E. exact E.
  - apply dashed_ref_maps in E. exact E.
  - unfold write_composes in E. destruct modules as [cs|]; [|injection E as <-; reflexivity].
    destruct (N.ltb _ _); [discriminate|]. apply handle_composes_maps in E. exact E.
Qed.

Lemma mappings_from : forall l done p q,
  Forall tidy l -> Forall tidy done ->
  run hash32 minify modules remap done new_printer = Fine p ->
  run hash32 minify modules remap l p = Fine q ->
  p_maps q = (p_maps p ++ map (fun x => maps_of (fst x) (snd x)) (marks remap done l))%list.
Proof.
  induction l as [|o l IH]; intros done p q T Td D E; cbn [run] in E.
  - injection E as <-. cbn. rewrite app_nil_r. reflexivity.
  - inversion T as [|? ? To Tl]; subst. destruct (run_op _ _ _ _ o p) as [p1| |] eqn:R; try discriminate. cbn [andthen] in E.
    assert (D1 : run hash32 minify modules remap (done ++ [o])%list new_printer = Fine p1).
    { rewrite run_app, D. cbn [andthen run]. rewrite R. reflexivity. }
    assert (Td1 : Forall tidy (done ++ [o])%list) by (apply Forall_app; auto).
    rewrite (IH _ _ _ Tl Td1 D1 E). rewrite (run_op_maps _ _ _ R).
    destruct o; cbn [new_maps marks]; rewrite ?app_nil_r; try reflexivity.
    destruct (original remap loc) as [i|]; [|rewrite app_nil_r; reflexivity].
    rewrite <- app_assoc. cbn [app map fst snd]. unfold PrinterSpec.maps_of at 2. rewrite D.
    destruct (positions _ _ Td D) as [L C]. rewrite L, C. reflexivity.
Qed.

Theorem mappings : forall l p, Forall tidy l -> run hash32 minify modules remap l new_printer = Fine p ->
  p_maps p = map (fun x => maps_of (fst x) (snd x)) (marks remap [] l).
Proof. intros l p T E. exact (mappings_from l [] new_printer p T (Forall_nil _) eq_refl E). Qed.

End Tidy.
