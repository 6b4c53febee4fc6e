(** CSS modules: the names in the output and in the export map. *)
From Coq Require Import List Bool String Ascii PeanoNat NArith Lia.
From Verif Require Import MediaModel IdentModel IdentSpec IdentProofs PatternModel PatternSpec PatternProofs.
From Verif Require Import PrinterModel PrinterSpec PrinterPosProofs.
Import ListNotations.
Local Open Scope nat_scope.
Local Open Scope bool_scope.
Local Open Scope list_scope.
Local Open Scope string_scope.

(** ** Maps *)

Lemma key_eqb_eq : forall x y, key_eqb x y = true <-> x = y.
Proof.
  intros [i s] [j t]. unfold key_eqb. cbn. rewrite andb_true_iff, Nat.eqb_eq, String.eqb_eq.
  split; [intros [-> ->]; reflexivity|]. intros E. injection E as -> ->. auto.
Qed.
Lemma key_eqb_refl : forall x, key_eqb x x = true.
Proof. intros x. now apply key_eqb_eq. Qed.
Lemma key_eqb_neq : forall x y, x <> y -> key_eqb x y = false.
Proof. intros x y N. destruct (key_eqb x y) eqn:E; [|reflexivity]. apply key_eqb_eq in E. congruence. Qed.
Lemma key_dec : forall x y : key, {x = y} + {x <> y}.
Proof. intros x y. destruct (key_eqb x y) eqn:E; [left; now apply key_eqb_eq|right; intros F; apply key_eqb_eq in F; congruence]. Qed.

Lemma get_set_same : forall m k e, ex_get (ex_set m k e) k = Some e.
Proof.
  induction m as [|[k' e'] m IH]; intros k e; cbn.
  - rewrite key_eqb_refl. reflexivity.
  - destruct (key_eqb k' k) eqn:E; cbn; rewrite E; [reflexivity|apply IH].
Qed.
Lemma get_set_other : forall m k k' e, k <> k' -> ex_get (ex_set m k e) k' = ex_get m k'.
Proof.
  induction m as [|[k1 e1] m IH]; intros k k' e N; cbn.
  - rewrite key_eqb_neq by exact N. reflexivity.
  - destruct (key_eqb k1 k) eqn:E; cbn.
    + apply key_eqb_eq in E. subst k1. rewrite key_eqb_neq by exact N. reflexivity.
    + destruct (key_eqb k1 k'); [reflexivity|apply IH; exact N].
Qed.

(** ** Text of names *)

Lemma no_nul_app : forall a b, no_nul (a ++ b) = no_nul a && no_nul b.
Proof. induction a as [|c a IH]; intros b; cbn; [reflexivity|]. rewrite IH. apply andb_assoc. Qed.

Lemma undot_nul : forall s, no_nul (undot s) = no_nul s.
Proof.
  induction s as [|c s IH]; [reflexivity|]. cbn [undot no_nul]. rewrite IH. f_equal.
  destruct c as [[] [] [] [] [] [] [] []]; reflexivity.
Qed.
Lemma undot_nil : forall s, undot s = "" -> s = "".
Proof. intros [|c s]; [auto|discriminate]. Qed.

Lemma get_all : forall f s n c, all_chars f s = true -> String.get n s = Some c -> f c = true.
Proof.
  intros f. induction s as [|d s IH]; intros n c A G; [discriminate|]. cbn in A. apply andb_true_iff in A.
  destruct A as [A1 A2]. destruct n; cbn in G; [injection G as <-; exact A1|]. eapply IH; eassumption.
Qed.
Lemma symbol_name : forall n, name_char (symbol n) = true.
Proof.
  intros n. unfold symbol. destruct (String.get (N.to_nat n) alphabet) as [c|] eqn:G; [|reflexivity].
  eapply get_all; [|exact G]. vm_compute. reflexivity.
Qed.
Lemma name_nul : forall c, name_char c = true -> Nat.eqb (code c) 0 = false.
Proof. intros c. destruct c as [[] [] [] [] [] [] [] []]; vm_compute (name_char _); intros H; try discriminate; reflexivity. Qed.
Lemma encode_nul : forall v, no_nul (encode v) = true.
Proof.
  intros v. unfold encode. cbn [no_nul]. rewrite !name_nul by apply symbol_name. reflexivity.
Qed.
Lemma hash_nul : forall v b, no_nul (hash_text v b) = true.
Proof.
  intros v b. unfold hash_text. destruct (b && _); [|apply encode_nul].
  cbn [append no_nul]. rewrite encode_nul. reflexivity.
Qed.
Lemma hash_nonempty : forall v b, hash_text v b <> "".
Proof. intros v b. unfold hash_text. destruct (b && _); discriminate. Qed.

Lemma read_pieces : forall l t, forallb no_nul l = true ->
  read_name RNext (pieces_text false l ++ t) = cons_name (fold_right append "" l) (read_name RNext t).
Proof.
  induction l as [|s l IH]; intros t H; cbn [pieces_text fold_right].
  - symmetry. apply cons_nil.
  - cbn [forallb] in H. apply andb_true_iff in H. destruct H as [H1 H2].
    rewrite sapp_assoc, read_ser_name, IH, cons_cons by assumption. reflexivity.
Qed.

Lemma read_first_pieces : forall s l t, s <> "" -> forallb no_nul (s :: l) = true -> ends_name t = true ->
  read_ident (pieces_text true (s :: l) ++ t) = Some (fold_right append "" (s :: l), t).
Proof.
  intros s l t NE H E. cbn [forallb] in H. apply andb_true_iff in H. destruct H as [H1 H2].
  cbn [pieces_text fold_right]. rewrite sapp_assoc. unfold read_ident.
  rewrite ser_ident_starts by assumption. rewrite read_ser_ident, read_pieces, cons_cons, read_end by assumption.
  unfold cons_name. cbn [fst snd]. rewrite sapp_nil. reflexivity.
Qed.

Lemma read_dashed_pieces : forall l t, forallb no_nul l = true -> ends_name t = true ->
  read_ident ("--" ++ pieces_text false l ++ t) = Some ("--" ++ fold_right append "" l, t).
Proof.
  intros l t H E. unfold read_ident. cbn [append starts_ident]. change (is_dash "-") with true. cbv iota. cbn [orb].
  rewrite orb_true_r. cbn [orb].
  change (String "-" (String "-" (pieces_text false l ++ t))) with (String dash (String dash (pieces_text false l ++ t))).
  rewrite !read_dash, read_pieces, !cons_cons, read_end by assumption.
  unfold cons_name. cbn [fst snd]. rewrite sapp_nil. reflexivity.
Qed.

Lemma dashed_split : forall s, dashed s = true -> s = "--" ++ rest_of s.
Proof.
  intros [|a [|b s]]; try discriminate. cbn. intros H. apply andb_true_iff in H. destruct H as [H1 H2].
  rewrite <- dash_is in H1, H2. apply Ascii.eqb_eq in H1, H2. subst. reflexivity.
Qed.
Lemma undash_rest : forall s, dashed s = true -> undash s = rest_of s.
Proof. intros [|a [|b s]]; try discriminate. intros _. destruct s; reflexivity. Qed.
Lemma rest_nul : forall s, no_nul s = true -> no_nul (rest_of s) = true.
Proof.
  intros [|a [|b s]] H; try reflexivity. cbn in *. apply andb_true_iff in H. destruct H as [_ H].
  apply andb_true_iff in H. apply H.
Qed.

Section Names.
Variable hash32 : string -> N.
Variable minify : bool.
Variable cfg : config.
Variable sources : list source.
Variable remap : location -> option (option location).
Variable pat : string.
Hypothesis pat_ok : parse_pattern pat = Some (inl (cf_pattern cfg)).
Hypothesis pat_nul : no_nul pat = true.
Hypothesis clean : Forall (clean_source pat) sources.
Hypothesis on : all_on cfg.

Notation cs := (cfg, sources).
Notation modules := (Some (cfg, sources)).
Notation step := (run_op hash32 minify modules remap).
Notation runs := (run hash32 minify modules remap).
Notation scoped' := (scoped hash32 pat sources).
Notation public' := (public hash32 pat sources).

Lemma pieces_scoped : forall i s l, pieces hash32 cs i s = Some l ->
  scoped' i s (fold_right append "" l).
Proof.
  intros i s l E. unfold pieces in E. cbn [fst snd] in E.
  destruct (nth_error sources i) as [so|] eqn:N; [|discriminate].
  destruct (hash_at_start (cf_pattern cfg)) as [b|] eqn:B; [|discriminate]. injection E as <-.
  exists so. split; [exact N|]. unfold begins_with_hash. rewrite <- (first_hash _ _ _ pat_ok B).
  pose proof (pattern_written pat (cf_pattern cfg) (hash_text (hash32 (so_path so)) b) (so_stem so) s (so_content so) pat_ok) as F.
  unfold pattern_string in F. rewrite fold_append in F. exact F.
Qed.

Lemma scoped_ok : forall res i s n, scoped_name hash32 cs res i s = Some n ->
  exists m, scoped' i s m /\ n = res ++ m.
Proof.
  intros res i s n E. unfold scoped_name in E. destruct (pieces hash32 cs i s) as [l|] eqn:P; [|discriminate].
  cbn in E. injection E as <-. exists (fold_right append "" l). split; [apply pieces_scoped; exact P|].
  apply fold_append.
Qed.

Lemma scoped_fun : forall i s n n', scoped' i s n -> scoped' i s n' -> n = n'.
Proof.
  intros i s n n' (so & N & F) (so' & N' & F'). rewrite N in N'. injection N' as <-.
  eapply filled_fun; eassumption.
Qed.
Lemma public_fun : forall i s n n', public' i s n -> public' i s n' -> n = n'.
Proof.
  intros i s n n'. unfold public. destruct (dashed s).
  - intros (m & S & ->) (m' & S' & ->). f_equal. eapply scoped_fun; eassumption.
  - apply scoped_fun.
Qed.

(** Pieces contain no NUL, and the first is not empty when the local name is
    not. *)
Lemma literal_nul : forall g, In g (cf_pattern cfg) -> match g with SLiteral t => no_nul t = true /\ t <> "" | _ => True end.
Proof.
  intros g I. pose proof (parse_source _ _ pat_ok) as S. pose proof (loop_literals _ _ _ _ pat_ok) as L.
  rewrite Forall_forall in L. specialize (L g I). destruct g as [t| | | |]; auto. split; [|apply L].
  rewrite S in pat_nul. clear S L pat_ok. induction (cf_pattern cfg) as [|x p IH]; [destruct I|].
  cbn [map fold_right] in pat_nul. rewrite no_nul_app in pat_nul. apply andb_true_iff in pat_nul. destruct pat_nul as [H1 H2].
  destruct I as [->|I]; [exact H1|exact (IH H2 I)].
Qed.

Lemma prefix_app : forall a b, String.prefix a (a ++ b) = true.
Proof.
  induction a as [|c a IH]; intros b; cbn; [destruct b; reflexivity|].
  destruct (ascii_dec c c); [apply IH|congruence].
Qed.

Lemma pieces_clean : forall i s l, pieces hash32 cs i s = Some l -> no_nul s = true ->
  forallb no_nul l = true /\ exists x r, l = x :: r /\ (s <> "" -> x <> "").
Proof.
  intros i s l E H. unfold pieces in E. cbn [fst snd] in E.
  destruct (nth_error sources i) as [so|] eqn:N; [|discriminate].
  destruct (hash_at_start (cf_pattern cfg)) as [b|] eqn:B; [|discriminate]. injection E as <-.
  rewrite Forall_forall in clean. pose proof (clean so (nth_error_In _ _ N)) as (C1 & C2 & C3 & C4). split.
  - apply forallb_forall. intros x I. unfold pattern_write in I. apply in_map_iff in I. destruct I as (g & <- & I).
    pose proof (literal_nul g I) as L. destruct g; cbn [segment_text]; [apply L|rewrite undot_nul; exact C1|exact H|apply hash_nul|exact C2].
  - pose proof literal_nul as L. pose proof (parse_source _ _ pat_ok) as S.
    destruct (cf_pattern cfg) as [|g p]; [discriminate|]. cbn [pattern_write map]. eexists. eexists. split; [reflexivity|].
    intros NE. cbn [map fold_right] in S. specialize (L g (or_introl eq_refl)).
    destruct g; cbn [segment_text seg_source] in *; [apply L| |exact NE|apply hash_nonempty|].
    + intros X. apply undot_nil in X. apply C3; [|exact X]. rewrite S. apply prefix_app.
    + apply C4. rewrite S. apply prefix_app.
Qed.

(** ** Effect of one operation on the export map *)

Definition hits (k : key) (i : nat) (s : option string) : bool :=
  match s with Some s => key_eqb k (i, s) | None => false end.

Definition effect (o : op) (i : nat) (m m' : exports) : Prop :=
  forall k,
    match ex_get m k with
    | Some e => exists e', ex_get m' k = Some e' /\ ex_name e' = ex_name e /\ ex_composes e' = ex_composes e /\
        ex_referenced e' = ex_referenced e || hits k i (referring (cf_dashed cfg) o)
    | None =>
        if hits k i (exporting (cf_dashed cfg) o) then
          exists e', ex_get m' k = Some e' /\ public' (fst k) (snd k) (ex_name e') /\ ex_composes e' = [] /\
            ex_referenced e' = hits k i (referring (cf_dashed cfg) o)
        else ex_get m' k = None
    end.

(** The effect of adding an entry (and marking it, when [b]). *)
Definition entry_effect (s : string) (b : bool) (i : nat) (m m' : exports) : Prop :=
  forall k,
    match ex_get m k with
    | Some e => exists e', ex_get m' k = Some e' /\ ex_name e' = ex_name e /\ ex_composes e' = ex_composes e /\
        ex_referenced e' = ex_referenced e || (key_eqb k (i, s) && b)
    | None =>
        if key_eqb k (i, s) then
          exists e', ex_get m' k = Some e' /\ public' (fst k) (snd k) (ex_name e') /\ ex_composes e' = [] /\
            ex_referenced e' = b
        else ex_get m' k = None
    end.
Definition no_effect (m m' : exports) : Prop :=
  forall k,
    match ex_get m k with
    | Some e => exists e', ex_get m' k = Some e' /\ ex_name e' = ex_name e /\ ex_composes e' = ex_composes e /\
        ex_referenced e' = ex_referenced e
    | None => ex_get m' k = None
    end.

Lemma no_effect_refl : forall m, no_effect m m.
Proof. intros m k. destruct (ex_get m k) as [e|] eqn:E; [|reflexivity]. exists e. auto. Qed.

Lemma named_public : forall i s res local n,
  (dashed s = false -> res = "" /\ local = s) -> (dashed s = true -> res = "--" /\ local = rest_of s) ->
  scoped_name hash32 cs res i local = Some n -> public' i s n.
Proof.
  intros i s res local n A B E. destruct (scoped_ok _ _ _ _ E) as (m & S & ->). unfold public.
  destruct (dashed s) eqn:D.
  - destruct (B eq_refl) as [-> ->]. exists m. auto.
  - destruct (A eq_refl) as [-> ->]. exact S.
Qed.

Lemma add_entry_effect : forall s res local i p q,
  (dashed s = false -> res = "" /\ local = s) -> (dashed s = true -> res = "--" /\ local = rest_of s) ->
  add_entry hash32 cs s res local i p = Fine q ->
  entry_effect s false i (p_exports p) (p_exports q) /\ p_out q = p_out p /\ p_loc q = p_loc p.
Proof.
  intros s res local i p q A B E. unfold add_entry in E.
  destruct (ex_get (p_exports p) (i, s)) as [e0|] eqn:G.
  - injection E as <-. split; [|auto]. intros k. destruct (ex_get (p_exports p) k) as [e|] eqn:K.
    + exists e. rewrite andb_false_r, orb_false_r. auto.
    + destruct (key_eqb k (i, s)) eqn:Q; [|reflexivity]. apply key_eqb_eq in Q. subst k. congruence.
  - destruct (scoped_name hash32 cs res i local) as [n|] eqn:S; [|discriminate]. injection E as <-.
    cbn [p_exports p_out p_loc set_exports]. split; [|auto]. intros k.
    destruct (ex_get (p_exports p) k) as [e|] eqn:K.
    + assert (N : (i, s) <> k) by (intros <-; congruence). rewrite get_set_other by exact N.
      exists e. rewrite andb_false_r, orb_false_r. auto.
    + destruct (key_eqb k (i, s)) eqn:Q.
      * apply key_eqb_eq in Q. subst k. rewrite get_set_same. eexists. split; [reflexivity|]. cbn [fst snd ex_name ex_composes ex_referenced].
        split; [|auto]. eapply named_public; eassumption.
      * rewrite get_set_other; [exact K|]. intros <-. rewrite key_eqb_refl in Q. discriminate.
Qed.

Lemma mark_effect : forall s res local i p q,
  (dashed s = false -> res = "" /\ local = s) -> (dashed s = true -> res = "--" /\ local = rest_of s) ->
  mark hash32 cs s res local i p = Fine q ->
  entry_effect s true i (p_exports p) (p_exports q) /\ p_out q = p_out p /\ p_loc q = p_loc p /\
  ex_get (p_exports q) (i, s) <> None.
Proof.
  intros s res local i p q A B E. unfold mark in E.
  destruct (ex_get (p_exports p) (i, s)) as [e0|] eqn:G.
  - injection E as <-. cbn [p_exports p_out p_loc set_exports]. rewrite get_set_same.
    split; [|split; [reflexivity|split; [reflexivity|discriminate]]]. intros k.
    destruct (key_dec (i, s) k) as [<-|N].
    + rewrite G, get_set_same, key_eqb_refl. eexists. split; [reflexivity|]. cbn. rewrite orb_true_r. auto.
    + rewrite get_set_other by exact N. rewrite (key_eqb_neq k (i, s)) by congruence.
      destruct (ex_get (p_exports p) k) as [e|]; [|reflexivity]. exists e. rewrite orb_false_r. auto.
  - destruct (scoped_name hash32 cs res i local) as [n|] eqn:S; [|discriminate]. injection E as <-.
    cbn [p_exports p_out p_loc set_exports]. rewrite get_set_same.
    split; [|split; [reflexivity|split; [reflexivity|discriminate]]]. intros k.
    destruct (key_dec (i, s) k) as [<-|N].
    + rewrite G, get_set_same, key_eqb_refl. eexists. split; [reflexivity|]. cbn [fst snd ex_name ex_composes ex_referenced].
      split; [|auto]. eapply named_public; eassumption.
    + rewrite get_set_other by exact N. rewrite (key_eqb_neq k (i, s)) by congruence.
      destruct (ex_get (p_exports p) k) as [e|]; [|reflexivity]. exists e. rewrite orb_false_r. auto.
Qed.

Lemma write_ident_effect : forall s p q, dashed s = false -> nonempty_nonul s = true ->
  write_ident hash32 modules s true p = Fine q ->
  entry_effect s false (l_source (p_loc p)) (p_exports p) (p_exports q) /\ p_loc q = p_loc p /\
  exists n, scoped' (l_source (p_loc p)) s n /\ prints "" n p q.
Proof.
  intros s p q D C E. unfold write_ident in E. cbv iota in E.
  destruct (pieces hash32 cs (l_source (p_loc p)) s) as [l|] eqn:P; [|discriminate].
  unfold nonempty_nonul in C. apply andb_true_iff in C. destruct C as [C1 C2].
  apply negb_true_iff, String.eqb_neq in C1.
  rewrite write_pieces_eq in E.
  apply add_entry_effect in E; [|auto|congruence]. destruct E as (E & O & L).
  cbn [p_exports p_out p_loc set_pos] in E, O, L. split; [exact E|]. split; [exact L|].
  exists (fold_right append "" l). split; [apply pieces_scoped; exact P|].
  exists (pieces_text true l). split; [exact O|]. intros t T.
  destruct (pieces_clean _ _ _ P C2) as (N & x & r & -> & X). apply read_first_pieces; auto.
Qed.

Lemma write_dashed_effect : forall s d p q, dashed s = true -> no_nul s = true -> cf_dashed cfg = true ->
  write_dashed_ident hash32 modules s d p = Fine q ->
  (if d then entry_effect s false (l_source (p_loc p)) (p_exports p) (p_exports q) else p_exports q = p_exports p) /\
  p_loc q = p_loc p /\ exists n, public' (l_source (p_loc p)) s n /\ prints "" n p q.
Proof.
  intros s d p q D C F E. unfold write_dashed_ident in E. cbn [fst] in E. rewrite F in E.
  rewrite (undash_rest s D) in E.
  destruct (pieces hash32 cs (l_source (p_loc p)) (rest_of s)) as [l|] eqn:P; [|discriminate].
  rewrite write_pieces_eq in E. cbn [write_str p_out set_pos p_line p_col] in E.
  assert (X : (if d then entry_effect s false (l_source (p_loc p)) (p_exports p) (p_exports q) else p_exports q = p_exports p)
              /\ p_out q = (p_out p ++ "--") ++ pieces_text false l /\ p_loc q = p_loc p).
  { destruct d.
    - unfold add_dashed in E. rewrite (undash_rest s D) in E.
      apply add_entry_effect in E; [|congruence|auto]. exact E.
    - injection E as <-. auto. }
  destruct X as (X1 & X2 & X3). split; [exact X1|]. split; [exact X3|].
  exists ("--" ++ fold_right append "" l). split.
  - unfold public. rewrite D. exists (fold_right append "" l). split; [apply pieces_scoped; exact P|reflexivity].
  - exists ("--" ++ pieces_text false l). split; [rewrite X2, sapp_assoc; reflexivity|]. intros t T.
    destruct (pieces_clean _ _ _ P (rest_nul s C)) as (N & _).
    change (("--" ++ pieces_text false l) ++ t) with ("--" ++ pieces_text false l ++ t).
    apply read_dashed_pieces; assumption.
Qed.

Lemma entry_then : forall s b i m1 m2 m3, entry_effect s b i m1 m2 -> entry_effect s false i m2 m3 ->
  entry_effect s b i m1 m3.
Proof.
  intros s b i m1 m2 m3 A B k. specialize (A k). specialize (B k).
  destruct (ex_get m1 k) as [e|].
  - destruct A as (e' & G & N & C & R). rewrite G in B. destruct B as (e2 & G2 & N2 & C2 & R2).
    exists e2. rewrite andb_false_r, orb_false_r in R2. split; [exact G2|]. split; [congruence|]. split; [congruence|]. congruence.
  - destruct (key_eqb k (i, s)).
    + destruct A as (e' & G & N & C & R). rewrite G in B. destruct B as (e2 & G2 & N2 & C2 & R2).
      exists e2. rewrite andb_false_r, orb_false_r in R2. split; [exact G2|]. rewrite N2. split; [exact N|]. split; congruence.
    + rewrite A in B. exact B.
Qed.

Definition is_reference (k : site) : bool :=
  match k with AnimationIdent | AnimationString | CounterStyle => true | _ => false end.

Lemma write_char_out : forall c p, p_out (write_char c p) = p_out p ++ c.
Proof. intros c p. unfold write_char. destruct (String.eqb _ _); reflexivity. Qed.
Lemma write_char_exports : forall c p, p_exports (write_char c p) = p_exports p.
Proof. intros c p. unfold write_char. destruct (String.eqb _ _); reflexivity. Qed.
Lemma write_char_loc : forall c p, p_loc (write_char c p) = p_loc p.
Proof. intros c p. unfold write_char. destruct (String.eqb _ _); reflexivity. Qed.

Lemma site_effect : forall k s p q, ordinary (Site k s) = true -> write_site hash32 modules k s p = Fine q ->
  entry_effect s (is_reference k) (l_source (p_loc p)) (p_exports p) (p_exports q) /\ p_loc q = p_loc p /\
  exists n, scoped' (l_source (p_loc p)) s n /\ prints (sigil k) n p q.
Proof.
  intros k s p q H E. cbn [ordinary] in H. apply andb_true_iff in H. destruct H as [H K].
  apply andb_true_iff in H. destruct H as [D C]. apply negb_true_iff in D.
  destruct on as (F1 & F2 & F3 & F4).
  assert (W : forall x y, write_ident hash32 modules s true x = Fine y ->
    entry_effect s false (l_source (p_loc x)) (p_exports x) (p_exports y) /\ p_loc y = p_loc x /\
    exists n, scoped' (l_source (p_loc x)) s n /\ prints "" n x y) by (intros x y; apply write_ident_effect; assumption).
  assert (G : forall n g, write_ident hash32 modules s true (write_char (one g) p) = Fine n ->
    entry_effect s false (l_source (p_loc p)) (p_exports p) (p_exports n) /\ p_loc n = p_loc p /\
    exists m, scoped' (l_source (p_loc p)) s m /\ prints (one g) m p n).
  { intros n g X. apply W in X. rewrite write_char_exports, write_char_loc in X. destruct X as (X1 & X2 & m & X3 & text & T1 & T2).
    split; [exact X1|]. split; [exact X2|]. exists m. split; [exact X3|]. exists text. split; [|exact T2].
    rewrite T1, write_char_out, sapp_assoc. reflexivity. }
  assert (M : forall x p1, reference_local hash32 cs s (l_source (p_loc p)) p = Fine p1 ->
     write_ident hash32 modules s true p1 = Fine x ->
     entry_effect s true (l_source (p_loc p)) (p_exports p) (p_exports x) /\ p_loc x = p_loc p /\
     exists m, scoped' (l_source (p_loc p)) s m /\ prints "" m p x).
  { intros x p1 X Y. unfold reference_local in X. apply mark_effect in X; [|auto|congruence].
    destruct X as (X1 & X2 & X3 & _). apply W in Y. rewrite X3 in Y.
    destruct Y as (Y1 & Y2 & m & Y3 & text & T1 & T2). split; [eapply entry_then; eassumption|].
    split; [exact Y2|]. exists m. split; [exact Y3|]. exists text. rewrite <- X2. auto. }
  destruct k; cbn [write_site sigil is_reference] in *; unfold write_custom, flag, mark_if in E;
    rewrite ?F1, ?F2, ?F3, ?F4 in E; cbn [andb] in E.
  - apply (G q (ch 46)). exact E.
  - apply (G q (ch 35)). exact E.
  - apply W. exact E.
  - apply negb_true_iff in K. rewrite K in E. apply W. exact E.
  - destruct (reference_local hash32 cs s (l_source (p_loc p)) p) as [p1| |] eqn:R; try discriminate. cbn [andthen] in E. exact (M q p1 eq_refl E).
  - apply negb_true_iff in K. rewrite K in E.
    destruct (reference_local hash32 cs s (l_source (p_loc p)) p) as [p1| |] eqn:R; try discriminate. cbn [andthen] in E. exact (M q p1 eq_refl E).
  - destruct (reference_local hash32 cs s (l_source (p_loc p)) p) as [p1| |] eqn:R; try discriminate. cbn [andthen] in E. exact (M q p1 eq_refl E).
  - destruct (match last (cf_pattern cfg) SLocal with SLocal => false | _ => true end); [discriminate|]. apply W. exact E.
  - apply W. exact E.
  - apply W. exact E.
Qed.

(** ** composes *)

(** What [composes] changes: only the composes lists, which grow. *)
Definition grows (m m' : exports) : Prop :=
  forall k,
    match ex_get m k with
    | Some e => exists e', ex_get m' k = Some e' /\ ex_name e' = ex_name e /\ ex_referenced e' = ex_referenced e /\
        extends (ex_composes e) (ex_composes e')
    | None => ex_get m' k = None
    end.
Lemma extends_refl : forall A (l : list A), extends l l.
Proof. intros A l. exists []. symmetry. apply app_nil_r. Qed.
Lemma extends_trans : forall A (a b c : list A), extends a b -> extends b c -> extends a c.
Proof. intros A a b c [x ->] [y ->]. exists (x ++ y)%list. symmetry. apply app_assoc. Qed.
Lemma extends_in : forall A (a b : list A) x, extends a b -> In x a -> In x b.
Proof. intros A a b x [r ->] I. apply in_or_app. auto. Qed.
Lemma grows_refl : forall m, grows m m.
Proof. intros m k. destruct (ex_get m k) as [e|] eqn:E; [|reflexivity]. exists e. auto using extends_refl. Qed.
Lemma grows_trans : forall a b c, grows a b -> grows b c -> grows a c.
Proof.
  intros a b c A B k. specialize (A k). specialize (B k). destruct (ex_get a k) as [e|].
  - destruct A as (e' & G & N & R & X). rewrite G in B. destruct B as (e2 & G2 & N2 & R2 & X2).
    exists e2. split; [exact G2|]. split; [congruence|]. split; [congruence|]. eapply extends_trans; eassumption.
  - rewrite A in B. exact B.
Qed.

Lemma grow_one : forall m k e r, ex_get m k = Some e ->
  grows m (ex_set m k (mkexport (ex_name e) (ex_composes e ++ r)%list (ex_referenced e))).
Proof.
  intros m k e r G k'. destruct (key_dec k k') as [<-|N].
  - rewrite G, get_set_same. eexists. split; [reflexivity|]. cbn. split; [reflexivity|]. split; [reflexivity|]. exists r. reflexivity.
  - rewrite get_set_other by exact N. destruct (ex_get m k') as [e'|]; [|reflexivity]. exists e'. auto using extends_refl.
Qed.

(** The references one name adds. *)
Definition adds_reference (f : option specifier) (i : nat) (s : string) (m : exports) (r : reference) : Prop :=
  match f with
  | None => exists n, scoped' i s n /\ r = RLocal n
  | Some SpGlobal => r = RGlobal s
  | Some (SpFile file) => r = RDependency s file
  | Some (SpIndex j) => exists d, ex_get m (j, s) = Some d /\ (r = RLocal (ex_name d) \/ In r (ex_composes d))
  end.

Lemma eqb_reference : forall x y, reference_eqb x y = true <-> x = y.
Proof. intros x y. unfold reference_eqb. destruct (reference_dec x y); split; congruence. Qed.
Lemma existsb_reference : forall r l, existsb (reference_eqb r) l = true <-> In r l.
Proof.
  intros r l. rewrite existsb_exists. split.
  - intros (x & I & E). apply eqb_reference in E. subst. exact I.
  - intros I. exists r. split; [exact I|]. now apply eqb_reference.
Qed.

Definition composes_of (m : exports) (k : key) : list reference :=
  match ex_get m k with Some e => ex_composes e | None => [] end.

Lemma composes_set_same : forall m k e, composes_of (ex_set m k e) k = ex_composes e.
Proof. intros. unfold composes_of. rewrite get_set_same. reflexivity. Qed.
Lemma composes_set_other : forall m k k' e, k <> k' -> composes_of (ex_set m k e) k' = composes_of m k'.
Proof. intros. unfold composes_of. rewrite get_set_other by assumption. reflexivity. Qed.

(** The whole effect of one name of a declaration. *)
Lemma compose_one_spec : forall i f id s p q, compose_one hash32 cs i f id s p = Fine q ->
  grows (p_exports p) (p_exports q) /\ p_out q = p_out p /\ p_loc q = p_loc p /\
  (forall k, k <> (i, id) -> composes_of (p_exports q) k = composes_of (p_exports p) k) /\
  (forall r, In r (composes_of (p_exports q) (i, id)) <->
             In r (composes_of (p_exports p) (i, id)) \/ adds_reference f i s (p_exports p) r) /\
  (match f with Some (SpIndex _) => False | _ => True end ->
   NoDup (composes_of (p_exports p) (i, id)) -> NoDup (composes_of (p_exports q) (i, id))).
Proof.
  intros i f id s p q E.
  assert (Push : forall r,
    match ex_get (p_exports p) (i, id) with
    | None => Panicked
    | Some e =>
        if existsb (reference_eqb r) (ex_composes e) then Fine p
        else Fine (set_exports p (ex_set (p_exports p) (i, id)
                     (mkexport (ex_name e) (ex_composes e ++ [r])%list (ex_referenced e))))
    end = Fine q ->
    grows (p_exports p) (p_exports q) /\ p_out q = p_out p /\ p_loc q = p_loc p /\
    (forall k, k <> (i, id) -> composes_of (p_exports q) k = composes_of (p_exports p) k) /\
    (forall r', In r' (composes_of (p_exports q) (i, id)) <-> In r' (composes_of (p_exports p) (i, id)) \/ r' = r) /\
    (NoDup (composes_of (p_exports p) (i, id)) -> NoDup (composes_of (p_exports q) (i, id)))).
  { intros r X. destruct (ex_get (p_exports p) (i, id)) as [e|] eqn:G; [|discriminate].
    destruct (existsb (reference_eqb r) (ex_composes e)) eqn:B.
    - injection X as <-. split; [apply grows_refl|]. split; [reflexivity|]. split; [reflexivity|]. split; [reflexivity|].
      split; [|auto]. intros r'. split; [auto|]. intros [I|I]; [exact I|]. subst r'.
      unfold composes_of. rewrite G. apply existsb_reference. exact B.
    - injection X as <-. cbn [p_exports p_out p_loc set_exports]. split; [apply grow_one; exact G|].
      split; [reflexivity|]. split; [reflexivity|].
      split; [intros k N; apply composes_set_other; congruence|].
      rewrite composes_set_same. cbn [ex_composes]. unfold composes_of. rewrite G. split.
      + intros r'. rewrite in_app_iff. cbn. intuition.
      + intros ND.
        assert (NI : ~ In r (ex_composes e)) by (intros I; apply existsb_reference in I; congruence).
        clear -ND NI. induction (ex_composes e) as [|x l IH]; cbn; [repeat constructor; auto|].
        inversion ND; subst. constructor.
        * rewrite in_app_iff. cbn. intros [I|[I|[]]]; [auto|]. subst. apply NI. left. reflexivity.
        * apply IH; [assumption|]. intros I. apply NI. right. exact I. }
  unfold compose_one in E. destruct f as [[|file|j]|].
  - apply Push in E. destruct E as (A & B & C & D & F & G). split; [exact A|]. split; [exact B|]. split; [exact C|]. split; [exact D|]. split; [exact F|auto].
  - apply Push in E. destruct E as (A & B & C & D & F & G). split; [exact A|]. split; [exact B|]. split; [exact C|]. split; [exact D|]. split; [exact F|auto].
  - destruct (ex_get (p_exports p) (j, s)) as [d|] eqn:J.
    + destruct (ex_get (p_exports p) (i, id)) as [e|] eqn:G; [|discriminate]. injection E as <-.
      cbn [p_exports p_out p_loc set_exports]. split; [apply grow_one; exact G|].
      split; [reflexivity|]. split; [reflexivity|].
      split; [intros k N; apply composes_set_other; congruence|].
      split; [|intros []]. intros r. rewrite composes_set_same. cbn [ex_composes adds_reference].
      unfold composes_of. rewrite G, in_app_iff. cbn [In]. split.
      * intros [I|[I|I]]; [auto|right; exists d; auto|right; exists d; auto].
      * intros [I|(d' & J' & [I|I])]; [auto| |]; rewrite J in J'; injection J' as <-; auto.
    + injection E as <-. split; [apply grows_refl|]. split; [reflexivity|]. split; [reflexivity|]. split; [reflexivity|].
      split; [|intros []]. intros r. cbn [adds_reference]. split; [auto|].
      intros [I|(d' & J' & _)]; [exact I|congruence].
  - destruct (scoped_name hash32 cs "" i s) as [n|] eqn:S; [|discriminate]. apply Push in E.
    destruct E as (A & B & C & D & F & G). split; [exact A|]. split; [exact B|]. split; [exact C|]. split; [exact D|]. split; [|auto].
    intros r. rewrite F. cbn [adds_reference]. destruct (scoped_ok _ _ _ _ S) as (m & Sm & ->). cbn [append] in *.
    split; (intros [I|I]; [auto|right]).
    + exists m. auto.
    + destruct I as (m' & Sm' & ->). f_equal. eapply scoped_fun; eassumption.
Qed.

(** Without references into the bundle, what is added does not depend on the
    exports. *)
Definition plain_from (f : option specifier) : Prop := match f with Some (SpIndex _) => False | _ => True end.
Lemma plain_adds : forall f i s m m' r, plain_from f -> adds_reference f i s m r -> adds_reference f i s m' r.
Proof. intros [[|file|j]|] i s m m' r P A; try destruct P; exact A. Qed.

Lemma compose_names_spec : forall i f id names p q, compose_names hash32 cs i f id names p = Fine q ->
  grows (p_exports p) (p_exports q) /\ p_out q = p_out p /\ p_loc q = p_loc p /\
  (forall k, k <> (i, id) -> composes_of (p_exports q) k = composes_of (p_exports p) k) /\
  (forall s d r, In s names -> f = Some (SpIndex d) ->
      adds_reference f i s (p_exports p) r -> In r (composes_of (p_exports q) (i, id))) /\
  (plain_from f ->
   (forall r, In r (composes_of (p_exports q) (i, id)) <->
             In r (composes_of (p_exports p) (i, id)) \/ exists s, In s names /\ adds_reference f i s (p_exports p) r) /\
   (NoDup (composes_of (p_exports p) (i, id)) -> NoDup (composes_of (p_exports q) (i, id)))).
Proof.
  intros i f id. induction names as [|s names IH]; intros p q E; cbn [compose_names] in E.
  - injection E as <-. split; [apply grows_refl|]. split; [reflexivity|]. split; [reflexivity|]. split; [reflexivity|].
    split; [intros s d r []|]. intros P. split; [|auto]. intros r. split; [auto|]. intros [I|(s & [] & _)]. exact I.
  - destruct (compose_one hash32 cs i f id s p) as [p1| |] eqn:C; try discriminate. cbn [andthen] in E.
    apply compose_one_spec in C. destruct C as (C1 & C2 & C3 & C4 & C5 & C6).
    apply IH in E. destruct E as (E1 & E2 & E3 & E4 & E5 & E6).
    split; [eapply grows_trans; eassumption|]. split; [congruence|]. split; [congruence|].
    split; [intros k N; rewrite E4, C4 by exact N; reflexivity|].
    assert (Mono : forall r, In r (composes_of (p_exports p1) (i, id)) -> In r (composes_of (p_exports q) (i, id))).
    { intros r I. specialize (E1 (i, id)). unfold composes_of in *. destruct (ex_get (p_exports p1) (i, id)) as [e|]; [|destruct I].
      destruct E1 as (e' & G & _ & _ & X). rewrite G. eapply extends_in; eassumption. }
    split.
    + intros s' d r [->|I] F A.
      * apply Mono. apply C5. right. exact A.
      * apply (E5 s' d r I F). subst f. cbn [adds_reference] in *. destruct A as (x & G & A).
        specialize (C1 (d, s')). rewrite G in C1. destruct C1 as (x' & G' & N' & _ & X'). exists x'. split; [exact G'|].
        rewrite N'. destruct A as [A|A]; [auto|]. right. eapply extends_in; eassumption.
    + intros P. destruct (E6 P) as [E7 E8]. split; [|intros ND; apply E8, C6; assumption].
      intros r. rewrite E7, C5. split.
      * intros [[I|I]|(s' & I & A)]; [auto| |].
        -- right. exists s. split; [left; reflexivity|exact I].
        -- right. exists s'. split; [right; exact I|]. eapply plain_adds; eassumption.
      * intros [I|(s' & [->|I] & A)]; [auto|auto|]. right. exists s'. split; [exact I|]. eapply plain_adds; eassumption.
Qed.

Lemma handle_spec : forall i f names sels p q, handle_composes hash32 cs i f sels names p = Fine q ->
  grows (p_exports p) (p_exports q) /\ p_out q = p_out p /\ p_loc q = p_loc p /\
  (forall id s d r, In (Some id) sels -> In s names -> f = Some (SpIndex d) ->
      adds_reference f i s (p_exports p) r -> In r (composes_of (p_exports q) (i, id))) /\
  (plain_from f ->
   (forall k r, In r (composes_of (p_exports q) k) <->
             In r (composes_of (p_exports p) k) \/
             exists id s, k = (i, id) /\ In (Some id) sels /\ In s names /\ adds_reference f i s (p_exports p) r) /\
   (forall k, NoDup (composes_of (p_exports p) k) -> NoDup (composes_of (p_exports q) k))).
Proof.
  intros i f names. induction sels as [|[id|] sels IH]; intros p q E; cbn [handle_composes] in E; [| |discriminate].
  - injection E as <-. split; [apply grows_refl|]. split; [reflexivity|]. split; [reflexivity|].
    split; [intros id s d r []|]. intros P. split; [|auto]. intros k r. split; [auto|]. intros [I|(id & s & _ & [] & _)]. exact I.
  - destruct (compose_names hash32 cs i f id names p) as [p1| |] eqn:C; try discriminate. cbn [andthen] in E.
    apply compose_names_spec in C. destruct C as (C1 & C2 & C3 & C4 & C5 & C6).
    apply IH in E. destruct E as (E1 & E2 & E3 & E4 & E5).
    split; [eapply grows_trans; eassumption|]. split; [congruence|]. split; [congruence|].
    assert (Mono : forall k r, In r (composes_of (p_exports p1) k) -> In r (composes_of (p_exports q) k)).
    { intros k r I. specialize (E1 k). unfold composes_of in *. destruct (ex_get (p_exports p1) k) as [e|]; [|destruct I].
      destruct E1 as (e' & G & _ & _ & X). rewrite G. eapply extends_in; eassumption. }
    split.
    + intros id' s d r [X|I] J F A.
      * injection X as <-. apply Mono. eapply C5; eassumption.
      * apply (E4 id' s d r I J F). subst f. cbn [adds_reference] in *. destruct A as (x & G & A).
        specialize (C1 (d, s)). rewrite G in C1. destruct C1 as (x' & G' & N' & _ & X'). exists x'. split; [exact G'|].
        rewrite N'. destruct A as [A|A]; [auto|]. right. eapply extends_in; eassumption.
    + intros P. destruct (C6 P) as [C7 C8]. destruct (E5 P) as [E6 E7]. split.
      * intros k r. rewrite E6. destruct (key_dec k (i, id)) as [->|N].
        -- rewrite C7. split.
           ++ intros [[I|(s & I & A)]|(id' & s & K & I & J & A)]; [auto| |].
              ** right. exists id, s. split; [reflexivity|]. split; [left; reflexivity|]. auto.
              ** right. injection K as <-. exists id, s. split; [reflexivity|]. split; [left; reflexivity|].
                 split; [exact J|]. eapply plain_adds; eassumption.
           ++ intros [I|(id' & s & K & I & J & A)]; [auto|]. injection K as <-. left. right. exists s. auto.
        -- rewrite C4 by exact N. split.
           ++ intros [I|(id' & s & K & I & J & A)]; [auto|]. right. exists id', s. split; [exact K|].
              split; [right; exact I|]. split; [exact J|]. eapply plain_adds; eassumption.
           ++ intros [I|(id' & s & K & [I|I] & J & A)]; [auto| |].
              ** injection I as ->. congruence.
              ** right. exists id', s. split; [exact K|]. split; [exact I|]. split; [exact J|]. eapply plain_adds; eassumption.
      * intros k ND. apply E7. destruct (key_dec k (i, id)) as [->|N]; [apply C8; exact ND|]. rewrite C4 by exact N. exact ND.
Qed.

(** ** Any operation *)

Definition is_compose (o : op) : bool := match o with Compose _ _ _ _ => true | _ => false end.

Lemma entry_exports : forall o i s (b : bool) m m', exporting (cf_dashed cfg) o = Some s ->
  referring (cf_dashed cfg) o = (if b then Some s else None) -> entry_effect s b i m m' -> effect o i m m'.
Proof.
  intros o i s b m m' X R E k. specialize (E k). rewrite X, R. cbn [hits].
  assert (H : hits k i (if b then Some s else None) = key_eqb k (i, s) && b).
  { destruct b; cbn [hits]; [rewrite andb_true_r; reflexivity|rewrite andb_false_r; reflexivity]. }
  rewrite H. destruct (ex_get m k) as [e|]; [exact E|].
  destruct (key_eqb k (i, s)); [|exact E]. exact E.
Qed.
Lemma none_exports : forall o i m, exporting (cf_dashed cfg) o = None -> referring (cf_dashed cfg) o = None -> effect o i m m.
Proof.
  intros o i m X R k. rewrite X, R. cbn [hits]. destruct (ex_get m k) as [e|] eqn:G; [|reflexivity].
  exists e. rewrite orb_false_r. auto.
Qed.

Definition next_source (o : op) (i : nat) : nat := match o with AddMapping loc => l_source loc | _ => i end.

Lemma ws_state : forall p, p_exports (whitespace minify p) = p_exports p /\ p_loc (whitespace minify p) = p_loc p.
Proof. intros p. unfold whitespace. destruct minify; [auto|]. rewrite write_char_exports, write_char_loc. auto. Qed.

Lemma dashed_ref_effect : forall s f p q, ordinary (DashedRef s f) = true ->
  write_dashed_reference hash32 modules s f p = Fine q ->
  effect (DashedRef s f) (l_source (p_loc p)) (p_exports p) (p_exports q) /\ p_loc q = p_loc p.
Proof.
  intros s f p q H E. cbn [ordinary] in H. apply andb_true_iff in H. destruct H as [D C].
  unfold write_dashed_reference in E. cbn [fst snd] in E.
  destruct (cf_dashed cfg) eqn:F.
  - destruct f as [[|file|j]|].
    + injection E as <-. split; [|reflexivity]. apply none_exports; reflexivity.
    + destruct (nth_error _ _); [|discriminate]. destruct (hash_at_start _); [|discriminate].
      apply fine_inj in E. subst q. split; [|reflexivity]. apply none_exports; reflexivity.
    + destruct (scoped_name _ _ _ _ _); [|discriminate]. injection E as <-. split; [|reflexivity]. apply none_exports; reflexivity.
    + rewrite (undash_rest s D) in E.
      destruct (mark hash32 cs s "--" (rest_of s) (l_source (p_loc p)) p) as [p1| |] eqn:M; try discriminate. cbn [andthen] in E.
      apply mark_effect in M; [|congruence|auto]. destruct M as (M1 & M2 & M3 & _).
      apply write_dashed_effect in E; try assumption. destruct E as (E1 & E2 & _).
      split; [|congruence]. apply entry_exports with (s := s) (b := true); [cbn; rewrite F; reflexivity|cbn; rewrite F; reflexivity|].
      rewrite E1. exact M1.
  - assert (X : exporting (cf_dashed cfg) (DashedRef s f) = None /\ referring (cf_dashed cfg) (DashedRef s f) = None).
    { rewrite F. destruct f; auto. }
    unfold write_dashed_ident in E. cbn [fst] in E. rewrite F in E. injection E as <-. split; [|reflexivity].
    apply none_exports; apply X.
Qed.

Lemma step_effect : forall o p q, ordinary o = true -> is_compose o = false -> step o p = Fine q ->
  effect o (l_source (p_loc p)) (p_exports p) (p_exports q) /\
  l_source (p_loc q) = next_source o (l_source (p_loc p)).
Proof.
  intros o p q H K E. destruct o; try discriminate; cbn [run_op next_source] in *.
  - injection E as <-. split; [|reflexivity]. apply none_exports; reflexivity.
  - injection E as <-. unfold write_str_with_newlines. destruct (count_lines _ _ _ _ _) as [[a b] c].
    split; [|reflexivity]. apply none_exports; reflexivity.
  - injection E as <-. rewrite write_char_exports, write_char_loc. split; [|reflexivity]. apply none_exports; reflexivity.
  - injection E as <-. destruct (ws_state p) as [-> ->]. split; [|reflexivity]. apply none_exports; reflexivity.
  - injection E as <-. unfold delim. destruct (ws_state (write_char c (if before then whitespace minify p else p))) as [-> ->].
    rewrite write_char_exports, write_char_loc. destruct before; [destruct (ws_state p) as [-> ->]|];
      (split; [|reflexivity]; apply none_exports; reflexivity).
  - injection E as <-. unfold newline. destruct minify; [split; [|reflexivity]; apply none_exports; reflexivity|].
    destruct (N.ltb _ _); cbn [write_str set_pos p_exports p_loc]; rewrite write_char_exports, write_char_loc;
      (split; [|reflexivity]; apply none_exports; reflexivity).
  - unfold indent_by in E. destruct (N.leb _ _); [|discriminate]. injection E as <-. split; [|reflexivity]. apply none_exports; reflexivity.
  - unfold dedent_by in E. destruct (N.leb _ _); [|discriminate]. injection E as <-. split; [|reflexivity]. apply none_exports; reflexivity.
  - unfold add_mapping in E. destruct (N.eqb _ _); [discriminate|].
    destruct (remap loc) as [[o|]|]; injection E as <-; (split; [|reflexivity]; apply none_exports; reflexivity).
  - apply site_effect in E; [|exact H]. destruct E as (E1 & E2 & _). rewrite E2. split; [|reflexivity].
    apply entry_exports with (s := s) (b := is_reference k); [reflexivity| |exact E1]. destruct k; reflexivity.
  - cbn [ordinary] in H. apply andb_true_iff in H. destruct H as [D C].
    destruct (cf_dashed cfg) eqn:F.
    + apply write_dashed_effect in E; try assumption. destruct E as (E1 & E2 & _). rewrite E2. split; [|reflexivity].
      apply entry_exports with (s := s) (b := false); [cbn; rewrite F; reflexivity|reflexivity|exact E1].
    + unfold write_dashed_ident in E. cbn [fst] in E. rewrite F in E. injection E as <-. split; [|reflexivity].
      apply none_exports; [cbn; rewrite F; reflexivity|reflexivity].
  - apply dashed_ref_effect in E; [|exact H]. destruct E as (E1 & E2). rewrite E2. auto.
Qed.

Lemma compose_effect : forall sels names f i p q, step (Compose sels names f i) p = Fine q ->
  handle_composes hash32 cs i f sels names p = Fine q.
Proof.
  intros sels names f i p q E. cbn [run_op] in E. unfold write_composes in E. destruct (N.ltb _ _); [discriminate|]. exact E.
Qed.

(** Nothing an operation does removes or renames an entry. *)
Definition keeps (m m' : exports) : Prop :=
  forall k e, ex_get m k = Some e -> exists e', ex_get m' k = Some e' /\ ex_name e' = ex_name e /\
    (ex_referenced e = true -> ex_referenced e' = true) /\ extends (ex_composes e) (ex_composes e').

Lemma step_keeps : forall o p q, ordinary o = true -> step o p = Fine q -> keeps (p_exports p) (p_exports q).
Proof.
  intros o p q H E k e G. destruct (is_compose o) eqn:K.
  - destruct o; try discriminate. apply compose_effect, handle_spec in E. destruct E as (E & _). specialize (E k).
    rewrite G in E. destruct E as (e' & G' & N & R & X). exists e'. rewrite R. auto.
  - destruct (step_effect o p q H K E) as [X _]. specialize (X k). rewrite G in X.
    destruct X as (e' & G' & N & C & R). exists e'. split; [exact G'|]. split; [exact N|].
    split; [intros T; rewrite R, T; reflexivity|]. rewrite C. apply extends_refl.
Qed.
Lemma keeps_refl : forall m, keeps m m.
Proof. intros m k e G. exists e. auto using extends_refl. Qed.
Lemma run_keeps : forall l p q, forallb ordinary l = true -> runs l p = Fine q -> keeps (p_exports p) (p_exports q).
Proof.
  induction l as [|o l IH]; intros p q H E; cbn [run] in E; [injection E as <-; apply keeps_refl|].
  cbn [forallb] in H. apply andb_true_iff in H. destruct H as [H1 H2].
  destruct (step o p) as [p1| |] eqn:S; try discriminate. cbn [andthen] in E.
  intros k e G. destruct (step_keeps o p p1 H1 S k e G) as (e1 & G1 & N1 & R1 & X1).
  destruct (IH p1 q H2 E k e1 G1) as (e2 & G2 & N2 & R2 & X2).
  exists e2. split; [exact G2|]. split; [congruence|]. split; [auto|]. eapply extends_trans; eassumption.
Qed.

Lemma step_source : forall o p q, ordinary o = true -> step o p = Fine q ->
  l_source (p_loc q) = next_source o (l_source (p_loc p)).
Proof.
  intros o p q H E. destruct (is_compose o) eqn:K.
  - destruct o; try discriminate. apply compose_effect, handle_spec in E. destruct E as (_ & _ & -> & _). reflexivity.
  - apply (step_effect o p q H K E).
Qed.
Lemma source_next : forall o l i, source_after (o :: l) i = source_after l (next_source o i).
Proof. intros o l i. destruct o; reflexivity. Qed.
Lemma run_source : forall l p q, forallb ordinary l = true -> runs l p = Fine q ->
  l_source (p_loc q) = source_after l (l_source (p_loc p)).
Proof.
  induction l as [|o l IH]; intros p q H E; cbn [run] in E; [injection E as <-; reflexivity|].
  cbn [forallb] in H. apply andb_true_iff in H. destruct H as [H1 H2].
  destruct (step o p) as [p1| |] eqn:S; try discriminate. cbn [andthen] in E.
  rewrite (IH p1 q H2 E), source_next, (step_source o p p1 H1 S). reflexivity.
Qed.

Lemma run_split : forall l1 o l2 p q, runs (l1 ++ o :: l2)%list p = Fine q ->
  exists p1 p2, runs l1 p = Fine p1 /\ step o p1 = Fine p2 /\ runs l2 p2 = Fine q.
Proof.
  intros l1 o l2 p q E. rewrite run_app in E.
  destruct (runs l1 p) as [p1| |] eqn:R1; try discriminate. cbn [andthen run] in E.
  destruct (step o p1) as [p2| |] eqn:S; try discriminate. cbn [andthen] in E. exists p1, p2. auto.
Qed.

(** *** Domain, names and references of the export map *)

Lemma occurs_cons : forall f o l i0 k, occurs_op f (o :: l) i0 k <->
  (f o = Some (snd k) /\ i0 = fst k) \/ occurs_op f l (next_source o i0) k.
Proof.
  intros f o l i0 k. split.
  - intros (l1 & o' & l2 & E & F & S). destruct l1 as [|o1 l1].
    + injection E as -> ->. left. auto.
    + injection E as -> ->. right. exists l1, o', l2. rewrite source_next in S. auto.
  - intros [[F S]|(l1 & o' & l2 & E & F & S)].
    + exists [], o, l. auto.
    + exists (o :: l1), o', l2. rewrite E, source_next. auto.
Qed.

Lemma hits_iff : forall k i s, hits k i s = true <-> s = Some (snd k) /\ i = fst k.
Proof.
  intros [j t] i [s|]; cbn [hits fst snd]; [|split; [discriminate|intros [E _]; discriminate]].
  rewrite key_eqb_eq. split; [intros E; injection E as -> ->; auto|intros [E ->]; injection E as ->; reflexivity].
Qed.

Definition referenced_in (m : exports) (k : key) : bool :=
  match ex_get m k with Some e => ex_referenced e | None => false end.

Lemma referring_exporting : forall b o s, referring b o = Some s -> exporting b o = Some s.
Proof. intros b o s. destruct o; cbn; try discriminate; [destruct k; try discriminate; auto|]. destruct from; [discriminate|auto]. Qed.

Lemma step_domain : forall o p q, ordinary o = true -> step o p = Fine q -> forall k,
  (ex_get (p_exports q) k <> None <->
   ex_get (p_exports p) k <> None \/ (exporting (cf_dashed cfg) o = Some (snd k) /\ l_source (p_loc p) = fst k)) /\
  (referenced_in (p_exports q) k = true <->
   referenced_in (p_exports p) k = true \/ (referring (cf_dashed cfg) o = Some (snd k) /\ l_source (p_loc p) = fst k)).
Proof.
  intros o p q H E k. rewrite <- !hits_iff. destruct (is_compose o) eqn:K.
  - destruct o; try discriminate. apply compose_effect, handle_spec in E. destruct E as (E & _). specialize (E k).
    cbn [exporting referring hits]. unfold referenced_in.
    destruct (ex_get (p_exports p) k) as [e|].
    + destruct E as (e' & G & _ & R & _). rewrite G, R. split; split; try (intros; left; congruence); try (intros _; discriminate); intros [X|X]; try congruence; auto.
    + rewrite E. split; split; auto; intros [X|X]; congruence.
  - destruct (step_effect o p q H K E) as [X _]. specialize (X k). unfold referenced_in.
    destruct (ex_get (p_exports p) k) as [e|].
    + destruct X as (e' & G & _ & _ & R). rewrite G, R, orb_true_iff. split; [|tauto].
      split; [intros _; left; discriminate|intros _; discriminate].
    + destruct (hits k (l_source (p_loc p)) (exporting (cf_dashed cfg) o)) eqn:Hx.
      * destruct X as (e' & G & _ & _ & R). rewrite G, R. split; [|split; [auto|intros [Y|Y]; [discriminate|exact Y]]].
        split; [auto|intros _; discriminate].
      * rewrite X. split; [split; [congruence|intros [Y|Y]; [congruence|discriminate]]|].
        split; [discriminate|]. intros [Y|Y]; [exact Y|]. apply hits_iff in Y. destruct Y as [Y1 Y2].
        apply referring_exporting in Y1. assert (Z : hits k (l_source (p_loc p)) (exporting (cf_dashed cfg) o) = true) by (apply hits_iff; auto).
        congruence.
Qed.

Lemma run_domain : forall l p q, forallb ordinary l = true -> runs l p = Fine q -> forall k,
  (ex_get (p_exports q) k <> None <->
   ex_get (p_exports p) k <> None \/ occurs_op (exporting (cf_dashed cfg)) l (l_source (p_loc p)) k) /\
  (referenced_in (p_exports q) k = true <->
   referenced_in (p_exports p) k = true \/ occurs_op (referring (cf_dashed cfg)) l (l_source (p_loc p)) k).
Proof.
  induction l as [|o l IH]; intros p q H E k; cbn [run] in E.
  - injection E as <-. split; split; auto; intros [X|(l1 & o & l2 & C & _)]; auto; destruct l1; discriminate.
  - cbn [forallb] in H. apply andb_true_iff in H. destruct H as [H1 H2].
    destruct (step o p) as [p1| |] eqn:S; try discriminate. cbn [andthen] in E.
    destruct (IH p1 q H2 E k) as [I1 I2]. destruct (step_domain o p p1 H1 S k) as [D1 D2].
    pose proof (step_source o p p1 H1 S) as SS. rewrite SS in I1, I2. rewrite !occurs_cons. split; [rewrite I1, D1|rewrite I2, D2]; tauto.
Qed.

(** Every entry has the name the pattern gives it. *)
Definition named (m : exports) : Prop := forall k e, ex_get m k = Some e -> public' (fst k) (snd k) (ex_name e).
Lemma step_named : forall o p q, ordinary o = true -> step o p = Fine q -> named (p_exports p) -> named (p_exports q).
Proof.
  intros o p q H E N k e G. destruct (ex_get (p_exports p) k) as [e0|] eqn:G0.
  - destruct (step_keeps o p q H E k e0 G0) as (e' & G' & N' & _). rewrite G in G'. injection G' as <-. rewrite N'. apply N. exact G0.
  - destruct (is_compose o) eqn:K.
    + destruct o; try discriminate. apply compose_effect, handle_spec in E. destruct E as (E & _). specialize (E k).
      rewrite G0 in E. congruence.
    + destruct (step_effect o p q H K E) as [X _]. specialize (X k). rewrite G0 in X. destruct (hits _ _ _); [|congruence].
      destruct X as (e' & G' & P & _). rewrite G in G'. injection G' as <-. exact P.
Qed.
Lemma run_named : forall l p q, forallb ordinary l = true -> runs l p = Fine q -> named (p_exports p) -> named (p_exports q).
Proof.
  induction l as [|o l IH]; intros p q H E N; cbn [run] in E; [injection E as <-; exact N|].
  cbn [forallb] in H. apply andb_true_iff in H. destruct H as [H1 H2].
  destruct (step o p) as [p1| |] eqn:S; try discriminate. cbn [andthen] in E.
  eapply IH; [exact H2|exact E|]. eapply step_named; eassumption.
Qed.

(** ** The theorems *)

Theorem export_map : forall l p, forallb ordinary l = true -> runs l new_printer = Fine p ->
  forall i s,
    (ex_get (p_exports p) (i, s) <> None <-> occurs_op (exporting (cf_dashed cfg)) l 0 (i, s)) /\
    (forall e, ex_get (p_exports p) (i, s) = Some e ->
       public' i s (ex_name e) /\
       (ex_referenced e = true <-> occurs_op (referring (cf_dashed cfg)) l 0 (i, s))).
Proof.
  intros l p H E i s. destruct (run_domain l new_printer p H E (i, s)) as [D R]. split.
  - rewrite D. cbn. tauto.
  - intros e G. split.
    + assert (N : named (p_exports p)) by (eapply run_named; [exact H|exact E|intros k e0 X; discriminate]).
      exact (N (i, s) e G).
    + unfold referenced_in in R. rewrite G in R. rewrite R. cbn. split; [intros [X|X]; [discriminate|exact X]|auto].
Qed.

Theorem site_name : forall l1 k s l2 p, forallb ordinary (l1 ++ Site k s :: l2)%list = true ->
  runs (l1 ++ Site k s :: l2)%list new_printer = Fine p ->
  exists p1 p2 e, runs l1 new_printer = Fine p1 /\ step (Site k s) p1 = Fine p2 /\
    ex_get (p_exports p) (source_after l1 0, s) = Some e /\ prints (sigil k) (ex_name e) p1 p2.
Proof.
  intros l1 k s l2 p H E. destruct (run_split _ _ _ _ _ E) as (p1 & p2 & R1 & S & R2).
  rewrite forallb_app in H. apply andb_true_iff in H. destruct H as [H1 H]. cbn [forallb] in H. apply andb_true_iff in H. destruct H as [H0 H2].
  exists p1, p2. pose proof (run_source l1 new_printer p1 H1 R1) as SS. cbn in SS.
  destruct (site_effect k s p1 p2 H0 S) as (A & B & n & C & D). rewrite SS in *.
  assert (N2 : named (p_exports p2)).
  { eapply step_named; [exact H0|exact S|]. eapply run_named; [exact H1|exact R1|]. intros k0 e X. discriminate. }
  destruct (ex_get (p_exports p2) (source_after l1 0, s)) as [e2|] eqn:G2.
  - destruct (run_keeps l2 p2 p H2 R2 _ _ G2) as (e & G & N & _). exists e. split; [exact R1|]. split; [exact S|]. split; [exact G|].
    rewrite N. specialize (N2 _ _ G2). cbn [fst snd] in N2. unfold public in N2.
    assert (Ds : dashed s = false).
    { cbn [ordinary] in H0. apply andb_true_iff in H0. destruct H0 as [X _]. apply andb_true_iff in X. destruct X as [X _]. now apply negb_true_iff. }
    rewrite Ds in N2. rewrite (scoped_fun _ _ _ _ N2 C). exact D.
  - exfalso. specialize (A (source_after l1 0, s)). rewrite key_eqb_refl in A.
    destruct (ex_get (p_exports p1) (source_after l1 0, s)) as [e|]; destruct A as (e' & G' & _); congruence.
Qed.

Theorem dashed_name : forall l1 s l2 p, cf_dashed cfg = true ->
  forallb ordinary (l1 ++ Dashed s :: l2)%list = true ->
  runs (l1 ++ Dashed s :: l2)%list new_printer = Fine p ->
  exists p1 p2 e, runs l1 new_printer = Fine p1 /\ step (Dashed s) p1 = Fine p2 /\
    ex_get (p_exports p) (source_after l1 0, s) = Some e /\ prints "" (ex_name e) p1 p2.
Proof.
  intros l1 s l2 p F H E. destruct (run_split _ _ _ _ _ E) as (p1 & p2 & R1 & S & R2).
  rewrite forallb_app in H. apply andb_true_iff in H. destruct H as [H1 H]. cbn [forallb] in H. apply andb_true_iff in H. destruct H as [H0 H2].
  exists p1, p2. pose proof (run_source l1 new_printer p1 H1 R1) as SS. cbn in SS.
  pose proof H0 as H0'. cbn [ordinary] in H0'. apply andb_true_iff in H0'. destruct H0' as [D C].
  destruct (write_dashed_effect s true p1 p2 D C F S) as (A & B & n & P & Pr). rewrite SS in *.
  assert (N2 : named (p_exports p2)).
  { eapply step_named; [exact H0|exact S|]. eapply run_named; [exact H1|exact R1|]. intros k0 e X. discriminate. }
  destruct (ex_get (p_exports p2) (source_after l1 0, s)) as [e2|] eqn:G2.
  - destruct (run_keeps l2 p2 p H2 R2 _ _ G2) as (e & G & N & _). exists e. split; [exact R1|]. split; [exact S|]. split; [exact G|].
    rewrite N. specialize (N2 _ _ G2). cbn [fst snd] in N2. rewrite (public_fun _ _ _ _ N2 P). exact Pr.
  - exfalso. specialize (A (source_after l1 0, s)). rewrite key_eqb_refl in A.
    destruct (ex_get (p_exports p1) (source_after l1 0, s)) as [e|]; destruct A as (e' & G' & _); congruence.
Qed.

Theorem dashed_ref_name : forall l1 s l2 p, cf_dashed cfg = true ->
  forallb ordinary (l1 ++ DashedRef s None :: l2)%list = true ->
  runs (l1 ++ DashedRef s None :: l2)%list new_printer = Fine p ->
  exists p1 p2 e, runs l1 new_printer = Fine p1 /\ step (DashedRef s None) p1 = Fine p2 /\
    ex_get (p_exports p) (source_after l1 0, s) = Some e /\ prints "" (ex_name e) p1 p2.
Proof.
  intros l1 s l2 p F H E. destruct (run_split _ _ _ _ _ E) as (p1 & p2 & R1 & S & R2).
  rewrite forallb_app in H. apply andb_true_iff in H. destruct H as [H1 H]. cbn [forallb] in H. apply andb_true_iff in H. destruct H as [H0 H2].
  exists p1, p2. pose proof (run_source l1 new_printer p1 H1 R1) as SS. cbn in SS.
  pose proof H0 as H0'. cbn [ordinary] in H0'. apply andb_true_iff in H0'. destruct H0' as [D C].
  assert (N2 : named (p_exports p2)).
  { eapply step_named; [exact H0|exact S|]. eapply run_named; [exact H1|exact R1|]. intros k0 e X. discriminate. }
  pose proof S as S'. cbn [run_op] in S'. unfold write_dashed_reference in S'. cbn [fst snd] in S'. rewrite F in S'.
  rewrite (undash_rest s D) in S'.
  destruct (mark hash32 cs s "--" (rest_of s) (l_source (p_loc p1)) p1) as [p3| |] eqn:M; try discriminate. cbn [andthen] in S'.
  apply mark_effect in M; [|congruence|auto]. destruct M as (M1 & M2 & M3 & M4). rewrite SS in *.
  destruct (write_dashed_effect s false p3 p2 D C F S') as (A & B & n & P & Pr). rewrite M3, SS in P.
  destruct (ex_get (p_exports p2) (source_after l1 0, s)) as [e2|] eqn:G2; [|congruence].
  destruct (run_keeps l2 p2 p H2 R2 _ _ G2) as (e & G & N & _). exists e. split; [exact R1|]. split; [exact S|]. split; [exact G|].
  rewrite N. specialize (N2 _ _ G2). cbn [fst snd] in N2. rewrite (public_fun _ _ _ _ N2 P).
  destruct Pr as (text & T1 & T2). exists text. rewrite T1, M2. auto.
Qed.

(** *** composes *)

Lemma step_composes : forall o p q, ordinary o = true -> from_bundle o = false -> step o p = Fine q ->
  (forall k r, In r (composes_of (p_exports q) k) <->
     In r (composes_of (p_exports p) k) \/ composed hash32 pat sources o (fst k) (snd k) r) /\
  (forall k, NoDup (composes_of (p_exports p) k) -> NoDup (composes_of (p_exports q) k)).
Proof.
  intros o p q H B E. destruct (is_compose o) eqn:K.
  - destruct o; try discriminate. apply compose_effect, handle_spec in E. destruct E as (_ & _ & _ & _ & E).
    assert (P : plain_from from) by (destruct from as [[| |]|]; try exact I; discriminate).
    destruct (E P) as [E1 E2]. split; [|exact E2]. intros k r. rewrite E1. split; (intros [I|I]; [auto|right]).
    + destruct I as (id & s & -> & I & J & A). cbn [fst snd].
      destruct from as [[|file|j]|]; cbn [adds_reference] in A; try discriminate.
      * subst r. econstructor; eassumption.
      * subst r. econstructor; eassumption.
      * destruct A as (n & Sn & ->). econstructor; eassumption.
    + destruct k as [ik id]. cbn [fst snd] in I.
      inversion I; subst; exists id, s; (split; [reflexivity|]; split; [assumption|]; split; [assumption|]); cbn [adds_reference]; eauto.
  - destruct (step_effect o p q H K E) as [X _]. assert (Y : forall k, composes_of (p_exports q) k = composes_of (p_exports p) k).
    { intros k. specialize (X k). unfold composes_of. destruct (ex_get (p_exports p) k) as [e|].
      - destruct X as (e' & G & _ & C & _). rewrite G. exact C.
      - destruct (hits _ _ _); [destruct X as (e' & G & _ & C & _); rewrite G; exact C|rewrite X; reflexivity]. }
    split; [|intros k; rewrite Y; auto]. intros k r. rewrite Y. split; [auto|]. intros [I|I]; [exact I|].
    destruct o; try discriminate; inversion I.
Qed.

Theorem composes_exact : forall l p, forallb ordinary l = true -> forallb (fun o => negb (from_bundle o)) l = true ->
  runs l new_printer = Fine p -> forall i s e, ex_get (p_exports p) (i, s) = Some e ->
  NoDup (ex_composes e) /\
  forall r, In r (ex_composes e) <-> exists o, In o l /\ composed hash32 pat sources o i s r.
Proof.
  intros l p H B E.
  assert (X : forall l p0, forallb ordinary l = true -> forallb (fun o => negb (from_bundle o)) l = true ->
    runs l p0 = Fine p ->
    (forall k r, In r (composes_of (p_exports p) k) <->
       In r (composes_of (p_exports p0) k) \/ exists o, In o l /\ composed hash32 pat sources o (fst k) (snd k) r) /\
    (forall k, NoDup (composes_of (p_exports p0) k) -> NoDup (composes_of (p_exports p) k))).
  { clear l H B E. induction l as [|o l IH]; intros p0 H B E; cbn [run] in E.
    - injection E as <-. split; [|auto]. intros k r. split; [auto|]. intros [I|(o & [] & _)]. exact I.
    - cbn [forallb] in H, B. apply andb_true_iff in H, B. destruct H as [H1 H2], B as [B1 B2]. apply negb_true_iff in B1.
      destruct (step o p0) as [p1| |] eqn:S; try discriminate. cbn [andthen] in E.
      destruct (IH p1 H2 B2 E) as [I1 I2]. destruct (step_composes o p0 p1 H1 B1 S) as [C1 C2].
      split; [|auto]. intros k r. rewrite I1, C1. split.
      + intros [[I|I]|(o' & I & C)]; [auto|right; exists o; split; [left; reflexivity|exact I]|right; exists o'; split; [right; exact I|exact C]].
      + intros [I|(o' & [->|I] & C)]; [auto|auto|]. right. exists o'. auto. }
  intros i s e G. destruct (X l new_printer H B E) as [X1 X2]. specialize (X1 (i, s)). specialize (X2 (i, s)).
  unfold composes_of in X1, X2. rewrite G in X1, X2. cbn in X1, X2. split; [apply X2; constructor|].
  intros r. rewrite X1. split; [intros [[]|I]; exact I|auto].
Qed.

Theorem composes_bundle : forall l1 sels names j i l2 p,
  forallb ordinary (l1 ++ Compose sels names (Some (SpIndex j)) i :: l2)%list = true ->
  runs (l1 ++ Compose sels names (Some (SpIndex j)) i :: l2)%list new_printer = Fine p ->
  exists p1, runs l1 new_printer = Fine p1 /\
    forall id s d, In (Some id) sels -> In s names -> ex_get (p_exports p1) (j, s) = Some d ->
      exists e, ex_get (p_exports p) (i, id) = Some e /\
        In (RLocal (ex_name d)) (ex_composes e) /\ incl (ex_composes d) (ex_composes e).
Proof.
  intros l1 sels names j i l2 p H E. destruct (run_split _ _ _ _ _ E) as (p1 & p2 & R1 & S & R2).
  rewrite forallb_app in H. apply andb_true_iff in H. destruct H as [H1 H]. cbn [forallb] in H. apply andb_true_iff in H. destruct H as [H0 H2].
  exists p1. split; [exact R1|]. intros id s d I J G. apply compose_effect, handle_spec in S.
  destruct S as (S1 & _ & _ & S4 & _).
  assert (A : forall r, adds_reference (Some (SpIndex j)) i s (p_exports p1) r -> In r (composes_of (p_exports p2) (i, id))).
  { intros r. apply (S4 id s j r I J eq_refl). }
  assert (L : In (RLocal (ex_name d)) (composes_of (p_exports p2) (i, id))) by (apply A; exists d; auto).
  unfold composes_of in *. destruct (ex_get (p_exports p2) (i, id)) as [e2|] eqn:G2; [|destruct L].
  destruct (run_keeps l2 p2 p H2 R2 _ _ G2) as (e & Ge & _ & _ & X). exists e. split; [exact Ge|].
  split; [eapply extends_in; eassumption|]. intros r Ir. eapply extends_in; [exact X|]. apply A. exists d. auto.
Qed.

(** *** References to other files *)

Lemma scoped_hash_start : forall i s l, pieces hash32 cs i s = Some l ->
  hash_at_start (cf_pattern cfg) = Some (begins_with_hash pat).
Proof.
  intros i s l E. unfold pieces in E. destruct (nth_error _ _); [|discriminate]. cbn [fst] in E.
  destruct (hash_at_start (cf_pattern cfg)) as [b|] eqn:B; [|discriminate]. f_equal. eapply first_hash; eassumption.
Qed.

Definition file_refs (o : op) (i : nat) : option (string * reference) :=
  match o with
  | DashedRef s (Some (SpFile f)) =>
      if cf_dashed cfg then
        match nth_error sources i with
        | Some so => Some (file_reference hash32 pat so s f, RDependency s f)
        | None => None
        end
      else None
  | _ => None
  end.

Lemma add_entry_refs : forall a b c i p q, add_entry hash32 cs a b c i p = Fine q -> p_refs q = p_refs p.
Proof.
  intros a b c i p q E. unfold add_entry in E. destruct (ex_get _ _); [injection E as <-; reflexivity|].
  destruct (scoped_name _ _ _ _ _); [|discriminate]. injection E as <-. reflexivity.
Qed.
Lemma mark_refs : forall a b c i p q, mark hash32 cs a b c i p = Fine q -> p_refs q = p_refs p.
Proof.
  intros a b c i p q E. unfold mark in E. destruct (ex_get _ _); [injection E as <-; reflexivity|].
  destruct (scoped_name _ _ _ _ _); [|discriminate]. injection E as <-. reflexivity.
Qed.
Lemma write_ident_refs : forall s h p q, write_ident hash32 modules s h p = Fine q -> p_refs q = p_refs p.
Proof.
  intros s h p q E. unfold write_ident in E.
  destruct h; [|injection E as <-; reflexivity].
  destruct (pieces _ _ _ _) as [l|]; [|discriminate]. apply add_entry_refs in E. rewrite E, write_pieces_eq. reflexivity.
Qed.
Lemma write_dashed_refs : forall s d p q, write_dashed_ident hash32 modules s d p = Fine q -> p_refs q = p_refs p.
Proof.
  intros s d p q E. unfold write_dashed_ident in E.
  destruct (cf_dashed _); [|injection E as <-; reflexivity].
  destruct (pieces _ _ _ _) as [l|]; [|discriminate].
  destruct d; [apply add_entry_refs in E; rewrite E|injection E as <-]; rewrite write_pieces_eq; reflexivity.
Qed.
Lemma write_char_refs : forall c p, p_refs (write_char c p) = p_refs p.
Proof. intros c p. unfold write_char. destruct (String.eqb _ _); reflexivity. Qed.
Lemma write_site_refs : forall k s p q, write_site hash32 modules k s p = Fine q -> p_refs q = p_refs p.
Proof.
  intros k s p q E.
  assert (M : forall b x y, mark_if hash32 modules b s x = Fine y -> p_refs y = p_refs x).
  { intros b x y. unfold mark_if. destruct b; [apply mark_refs|intros X; injection X as <-; reflexivity]. }
  destruct k; cbn [write_site] in E; unfold write_custom in E.
  - apply write_ident_refs in E. rewrite E. apply write_char_refs.
  - apply write_ident_refs in E. rewrite E. apply write_char_refs.
  - apply write_ident_refs in E. exact E.
  - destruct (keeps_quotes s); [injection E as <-; reflexivity|]. apply write_ident_refs in E. exact E.
  - destruct (mark_if _ _ _ _ _) as [p1| |] eqn:X; try discriminate. cbn [andthen] in E.
    apply write_ident_refs in E. apply M in X. congruence.
  - destruct (mark_if _ _ _ _ _) as [p1| |] eqn:X; try discriminate. cbn [andthen] in E. apply M in X.
    destruct (keeps_quotes s); [injection E as <-; exact X|]. apply write_ident_refs in E. congruence.
  - destruct (mark_if _ _ _ _ _) as [p1| |] eqn:X; try discriminate. cbn [andthen] in E.
    apply write_ident_refs in E. apply M in X. congruence.
  - destruct (_ && _); [discriminate|]. apply write_ident_refs in E. exact E.
  - apply write_ident_refs in E. exact E.
  - apply write_ident_refs in E. exact E.
Qed.
Lemma compose_refs : forall i f sels names p q, handle_composes hash32 cs i f sels names p = Fine q -> p_refs q = p_refs p.
Proof.
  intros i f.
  assert (C1 : forall id s p q, compose_one hash32 cs i f id s p = Fine q -> p_refs q = p_refs p).
  { intros id s p q E. unfold compose_one in E.
    destruct f as [[|file|j]|]; [| |destruct (ex_get (p_exports p) (j, s)); [|injection E as <-; reflexivity]|
                                 destruct (scoped_name _ _ _ _ _); [|discriminate]];
      (destruct (ex_get (p_exports p) (i, id)); [|discriminate]);
      try (destruct (existsb _ _); injection E as <-; reflexivity).
    injection E as <-. reflexivity. }
  assert (C2 : forall id names p q, compose_names hash32 cs i f id names p = Fine q -> p_refs q = p_refs p).
  { intros id. induction names as [|s names IH]; intros p q E; cbn [compose_names] in E; [injection E as <-; reflexivity|].
    destruct (compose_one _ _ _ _ _ _ _) as [p1| |] eqn:C; try discriminate. cbn [andthen] in E. apply IH in E. apply C1 in C. congruence. }
  induction sels as [|[id|] sels IH]; intros names p q E; cbn [handle_composes] in E; [injection E as <-; reflexivity| |discriminate].
  destruct (compose_names _ _ _ _ _ _ _) as [p1| |] eqn:C; try discriminate. cbn [andthen] in E. apply IH in E. apply C2 in C. congruence.
Qed.
Lemma ws_refs : forall p, p_refs (whitespace minify p) = p_refs p.
Proof. intros p. unfold whitespace. destruct minify; [reflexivity|apply write_char_refs]. Qed.

Lemma step_refs : forall o p q, step o p = Fine q ->
  p_refs q = match file_refs o (l_source (p_loc p)) with Some x => x :: p_refs p | None => p_refs p end.
Proof.
  intros o p q E. destruct o; cbn [run_op file_refs] in *.
  - injection E as <-. reflexivity.
  - injection E as <-. unfold write_str_with_newlines. destruct (count_lines _ _ _ _ _) as [[a b] c]. reflexivity.
  - injection E as <-. apply write_char_refs.
  - injection E as <-. apply ws_refs.
  - injection E as <-. unfold delim. rewrite ws_refs, write_char_refs. destruct before; [apply ws_refs|reflexivity].
  - injection E as <-. unfold newline. destruct minify; [reflexivity|]. destruct (N.ltb _ _); exact (write_char_refs (one lf) p).
  - unfold indent_by in E. destruct (N.leb _ _); [|discriminate]. injection E as <-. reflexivity.
  - unfold dedent_by in E. destruct (N.leb _ _); [|discriminate]. injection E as <-. reflexivity.
  - unfold add_mapping in E. destruct (N.eqb _ _); [discriminate|].
    destruct (remap loc) as [[o|]|]; injection E as <-; reflexivity.
  - apply write_site_refs in E. exact E.
  - apply write_dashed_refs in E. exact E.
  - unfold write_dashed_reference in E. cbn [fst snd] in E. destruct (cf_dashed cfg) eqn:F.
    + destruct from as [[|file|j]|].
      * injection E as <-. reflexivity.
      * destruct (nth_error sources (l_source (p_loc p))) as [so|]; [|discriminate].
        destruct (hash_at_start (cf_pattern cfg)) as [b|] eqn:B; [|discriminate].
        apply fine_inj in E. subst q. unfold file_reference, begins_with_hash. rewrite <- (first_hash _ _ _ pat_ok B). reflexivity.
      * destruct (scoped_name _ _ _ _ _); [|discriminate]. injection E as <-. reflexivity.
      * destruct (mark _ _ _ _ _ _ _) as [p1| |] eqn:M; try discriminate. cbn [andthen] in E.
        apply write_dashed_refs in E. apply mark_refs in M. congruence.
    + apply write_dashed_refs in E. rewrite E. destruct from as [[| |]|]; reflexivity.
  - apply compose_effect, compose_refs in E. exact E.
Qed.

Lemma ref_get_in : forall m k r, ref_get m k = Some r -> In (k, r) m.
Proof.
  induction m as [|[k' r'] m IH]; intros k r E; cbn in E; [discriminate|].
  destruct (String.eqb_spec k' k) as [->|]; [injection E as ->; left; reflexivity|]. right. apply IH. exact E.
Qed.
Lemma ref_get_some : forall m k r, In (k, r) m -> exists r', ref_get m k = Some r'.
Proof.
  induction m as [|[k' r'] m IH]; intros k r I; [destruct I|]. cbn. destruct (String.eqb_spec k' k) as [->|N]; [eauto|].
  destruct I as [I|I]; [injection I as -> _; congruence|]. eapply IH. exact I.
Qed.

Lemma some_pair : forall A B (a c : A) (b d : B), Some (a, b) = Some (c, d) -> a = c /\ b = d.
Proof. intros A B a c b d E. injection E as -> ->. auto. Qed.
Lemma run_refs : forall l p q, forallb ordinary l = true -> runs l p = Fine q -> forall x,
  In x (p_refs q) <-> In x (p_refs p) \/
    exists l1 o l2, l = (l1 ++ o :: l2)%list /\ file_refs o (source_after l1 (l_source (p_loc p))) = Some x.
Proof.
  induction l as [|o l IH]; intros p q H E x; cbn [run] in E.
  - injection E as <-. split; [auto|]. intros [I|(l1 & o & l2 & C & _)]; [exact I|]. destruct l1; discriminate.
  - cbn [forallb] in H. apply andb_true_iff in H. destruct H as [H1 H2].
    destruct (step o p) as [p1| |] eqn:S; try discriminate. cbn [andthen] in E.
    rewrite (IH p1 q H2 E x), (step_refs o p p1 S), (step_source o p p1 H1 S). split.
    + intros [I|(l1 & o' & l2 & C & F)].
      * destruct (file_refs o (l_source (p_loc p))) as [y|] eqn:F; [|auto]. destruct I as [->|I]; [|auto].
        right. exists [], o, l. auto.
      * right. exists (o :: l1), o', l2. rewrite source_next, C. auto.
    + intros [I|(l1 & o' & l2 & C & F)].
      * left. destruct (file_refs o (l_source (p_loc p))); [right; exact I|exact I].
      * destruct l1 as [|o1 l1]; injection C as -> ->.
        -- cbn [source_after] in F. rewrite F. left. left. reflexivity.
        -- right. exists l1, o', l2. rewrite source_next in F. auto.
Qed.

Theorem file_references : forall l1 s f l2 p so,
  cf_dashed cfg = true -> forallb ordinary (l1 ++ DashedRef s (Some (SpFile f)) :: l2)%list = true ->
  runs (l1 ++ DashedRef s (Some (SpFile f)) :: l2)%list new_printer = Fine p ->
  nth_error sources (source_after l1 0) = Some so ->
  (forall l1' s' f' l2' so', (l1 ++ DashedRef s (Some (SpFile f)) :: l2 = l1' ++ DashedRef s' (Some (SpFile f')) :: l2')%list ->
     nth_error sources (source_after l1' 0) = Some so' ->
     file_reference hash32 pat so' s' f' = file_reference hash32 pat so s f -> s' = s /\ f' = f) ->
  exists p1 p2, runs l1 new_printer = Fine p1 /\ step (DashedRef s (Some (SpFile f))) p1 = Fine p2 /\
    prints "" (file_reference hash32 pat so s f) p1 p2 /\
    ref_get (p_refs p) (file_reference hash32 pat so s f) = Some (RDependency s f).
Proof.
  intros l1 s f l2 p so F H E N U. destruct (run_split _ _ _ _ _ E) as (p1 & p2 & R1 & S & R2).
  exists p1, p2. split; [exact R1|]. split; [exact S|].
  pose proof H as H'. rewrite forallb_app in H'. apply andb_true_iff in H'. destruct H' as [H1 H'].
  pose proof (run_source l1 new_printer p1 H1 R1) as SS. cbn in SS. split.
  - cbn [run_op] in S. unfold write_dashed_reference in S. cbn [fst snd] in S. rewrite F, SS, N in S.
    destruct (hash_at_start (cf_pattern cfg)) as [b|] eqn:B; [|discriminate]. apply fine_inj in S. subst p2.
    unfold file_reference, begins_with_hash. rewrite <- (first_hash _ _ _ pat_ok B).
    set (h := hash_text (hash32 _) false). assert (Hn : no_nul h = true) by apply hash_nul. clearbody h.
    exists ("--" ++ ser_name h). split.
    + cbn [write_str set_pos p_out set_refs]. rewrite sapp_assoc. reflexivity.
    + intros t T. rewrite sapp_assoc. apply name_round_trip; assumption.
  - destruct (ref_get (p_refs p) (file_reference hash32 pat so s f)) as [r|] eqn:G.
    + apply ref_get_in in G. apply (run_refs _ _ _ H E) in G. destruct G as [[]|(l1' & o & l2' & C & Fr)].
      cbn [new_printer p_loc l_source] in Fr. unfold file_refs in Fr. destruct o; try discriminate. destruct from as [[| |]|]; try discriminate.
      rewrite F in Fr. destruct (nth_error sources (source_after l1' 0)) as [so'|] eqn:N'; [|discriminate].
      apply some_pair in Fr. destruct Fr as [Fe <-]. destruct (U _ _ _ _ _ C N') as [-> ->]; [|reflexivity]. exact Fe.
    + exfalso. assert (I : In (file_reference hash32 pat so s f, RDependency s f) (p_refs p)).
      { apply (run_refs _ _ _ H E). right. exists l1, (DashedRef s (Some (SpFile f))), l2. split; [reflexivity|].
        cbn [new_printer p_loc l_source file_refs]. rewrite F, N. reflexivity. }
      apply ref_get_some in I. destruct I as [r' G']. congruence.
Qed.

(** *** Collisions *)

Theorem exports_distinct : forall l p, forallb ordinary l = true -> runs l new_printer = Fine p ->
  has_local (cf_pattern cfg) -> forall i s s' e e',
  ex_get (p_exports p) (i, s) = Some e -> ex_get (p_exports p) (i, s') = Some e' ->
  dashed s = dashed s' -> ex_name e = ex_name e' -> s = s'.
Proof.
  intros l p H E HL i s s' e e' G G' D N.
  destruct (export_map l p H E i s) as [_ A]. destruct (export_map l p H E i s') as [_ A'].
  destruct (A e G) as [P _]. destruct (A' e' G') as [P' _]. rewrite N in P. unfold public in P, P'. rewrite <- D in P'.
  assert (X : forall x y n, scoped' i x n -> scoped' i y n -> x = y).
  { intros x y n (so & Ns & F) (so' & Ns' & F'). rewrite Ns in Ns'. injection Ns' as <-.
    set (h := hash_text _ _) in *. clearbody h.
    pose proof (pattern_written pat (cf_pattern cfg) h (so_stem so) x (so_content so) pat_ok) as Fx.
    pose proof (pattern_written pat (cf_pattern cfg) h (so_stem so) y (so_content so) pat_ok) as Fy.
    apply (same_file_injective (cf_pattern cfg) h (so_stem so) x y (so_content so) HL).
    rewrite (filled_fun _ _ _ Fx _ F), (filled_fun _ _ _ Fy _ F'). reflexivity. }
  destruct (dashed s) eqn:Ds.
  - destruct P as (m & S & M). destruct P' as (m' & S' & M'). rewrite M in M'. injection M' as <-.
    rewrite (dashed_split s Ds), (dashed_split s' (eq_sym D)). f_equal. eapply X; eassumption.
  - eapply X; eassumption.
Qed.

Theorem exports_distinct_files : forall l p, forallb ordinary l = true -> runs l new_printer = Fine p ->
  has_local (cf_pattern cfg) -> In SHash (cf_pattern cfg) ->
  Forall (fun g => fixed_segment g = true) (cf_pattern cfg) ->
  (match cf_pattern cfg with SHash :: SLiteral t :: _ => separates t = true | SHash :: _ => False | _ => True end) ->
  (forall so, is_u32 (hash32 so)) ->
  forall i s i' s' e e' so so',
  ex_get (p_exports p) (i, s) = Some e -> ex_get (p_exports p) (i', s') = Some e' ->
  nth_error sources i = Some so -> nth_error sources i' = Some so' ->
  dashed s = dashed s' -> ex_name e = ex_name e' -> hash32 (so_path so) = hash32 (so_path so') /\ s = s'.
Proof.
  intros l p H E HL HH HF HS U i s i' s' e e' so so' G G' Ns Ns' D N.
  destruct (export_map l p H E i s) as [_ A]. destruct (export_map l p H E i' s') as [_ A'].
  destruct (A e G) as [P _]. destruct (A' e' G') as [P' _]. rewrite N in P. unfold public in P, P'. rewrite <- D in P'.
  assert (X : forall x y n, scoped' i x n -> scoped' i' y n -> hash32 (so_path so) = hash32 (so_path so') /\ x = y).
  { intros x y n (so1 & Ns1 & F) (so2 & Ns2 & F'). rewrite Ns in Ns1. rewrite Ns' in Ns2. injection Ns1 as <-. injection Ns2 as <-.
    destruct (hash_at_start (cf_pattern cfg)) as [b|] eqn:B.
    - unfold begins_with_hash in F, F'. rewrite <- (first_hash _ _ _ pat_ok B) in F, F'.
      pose proof (pattern_written pat (cf_pattern cfg) (hash_text (hash32 (so_path so)) b) (so_stem so) x (so_content so) pat_ok) as Fx.
      pose proof (pattern_written pat (cf_pattern cfg) (hash_text (hash32 (so_path so')) b) (so_stem so') y (so_content so') pat_ok) as Fy.
      eapply (files_injective (cf_pattern cfg) _ _ (so_stem so) (so_stem so') x y (so_content so) (so_content so') n); auto.
      + unfold name_in. rewrite B. f_equal. apply (filled_fun _ _ _ Fx _ F).
      + unfold name_in. rewrite B. f_equal. apply (filled_fun _ _ _ Fy _ F').
    - destruct (cf_pattern cfg) as [|[] ?]; discriminate || destruct HL. }
  destruct (dashed s) eqn:Ds.
  - destruct P as (m & S & M). destruct P' as (m' & S' & M'). rewrite M in M'. injection M' as <-.
    rewrite (dashed_split s Ds), (dashed_split s' (eq_sym D)).
    destruct (X _ _ _ S S') as [-> ->]. auto.
  - eapply X; eassumption.
Qed.

End Names.

(** ** Without CSS modules *)

Section Plain.
Variable hash32 : string -> N.
Variable minify : bool.
Variable remap : location -> option (option location).

Lemma ident_prints : forall s p, nonempty_nonul s = true -> prints "" s p (write_str (ser_ident s) p).
Proof.
  intros s p H. unfold nonempty_nonul in H. apply andb_true_iff in H. destruct H as [H1 H2].
  apply negb_true_iff, String.eqb_neq in H1. exists (ser_ident s). split; [reflexivity|].
  intros t T. apply ident_round_trip; assumption.
Qed.
Lemma sigil_prints : forall c s p, nonempty_nonul s = true ->
  prints (one c) s p (write_str (ser_ident s) (write_char (one c) p)).
Proof.
  intros c s p H. destruct (ident_prints s (write_char (one c) p) H) as (text & T1 & T2). exists text. split; [|exact T2].
  rewrite T1, write_char_out, sapp_assoc. reflexivity.
Qed.

Theorem names_read_back : forall k s p, ordinary (Site k s) = true ->
  exists q, run_op hash32 minify None remap (Site k s) p = Fine q /\ prints (sigil k) s p q.
Proof.
  intros k s p H. cbn [ordinary] in H. apply andb_true_iff in H. destruct H as [H K].
  apply andb_true_iff in H. destruct H as [_ C]. cbn [run_op].
  destruct k; cbn [write_site write_ident mark_if andthen sigil];
    try (eexists; split; [reflexivity|]; apply ident_prints; exact C).
  - eexists. split; [reflexivity|]. apply sigil_prints. exact C.
  - eexists. split; [reflexivity|]. apply sigil_prints. exact C.
  - apply negb_true_iff in K. rewrite K. eexists. split; [reflexivity|]. apply ident_prints; exact C.
  - apply negb_true_iff in K. rewrite K. eexists. split; [reflexivity|]. apply ident_prints; exact C.
Qed.

Lemma dashed_prints : forall s p, dashed s = true -> no_nul s = true ->
  prints "" s p (write_str (ser_name (undash s)) (write_str "--" p)).
Proof.
  intros s p D C. rewrite (undash_rest s D). exists ("--" ++ ser_name (rest_of s)). split.
  - cbn [write_str set_pos p_out]. rewrite sapp_assoc. reflexivity.
  - intros t T. rewrite sapp_assoc. rewrite (dashed_split s D) at 2. apply name_round_trip; [|exact T].
    apply rest_nul. exact C.
Qed.

Theorem dashed_read_back : forall s p, dashed s = true -> no_nul s = true ->
  exists q, run_op hash32 minify None remap (Dashed s) p = Fine q /\ prints "" s p q.
Proof. intros s p D C. eexists. split; [reflexivity|]. apply dashed_prints; assumption. Qed.
Theorem dashed_ref_read_back : forall s p, dashed s = true -> no_nul s = true ->
  exists q, run_op hash32 minify None remap (DashedRef s None) p = Fine q /\ prints "" s p q.
Proof. intros s p D C. eexists. split; [reflexivity|]. apply dashed_prints; assumption. Qed.

End Plain.
