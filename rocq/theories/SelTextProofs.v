(** * Proofs about selectors as text *)
From Coq Require Import List Bool ZArith Ascii String Lia Arith.
Import ListNotations.
From Verif Require AnimModel AnbSpec AnbProofs.
From Verif Require Import AnbModel SelTextModel SelTextSpec.
Local Open Scope list_scope.

(** ** What is written for a selector, without compounds *)
Inductive ctx := First | Start | FirstNest | AfterNs | Mid.
Section Walk.
Context {A : Type}.
Definition alone (r : list (comp * list A)) : bool :=
  match r with [] => true | (Comb PseudoElement, _) :: _ | (Comb SlotAssignment, _) :: _ => false | (Comb _, _) :: _ => true | _ => false end.
Definition keep (x : ctx) (r : list (comp * list A)) : bool := match x with AfterNs => true | Mid => false | _ => alone r end.
Definition after (x : ctx) (c : comp) : ctx :=
  match c with
  | Comb _ => Start
  | Nesting => match x with First => FirstNest | _ => Mid end
  | AnyNs | NoNs | Ns _ => match x with First | FirstNest | Start => AfterNs | _ => Mid end
  | _ => Mid
  end.
Fixpoint walk (x : ctx) (s : list (comp * list A)) : list A :=
  match s with
  | [] => []
  | (c, w) :: r => (if is_univ c && negb (keep x r) then [] else w) ++ walk (after x c) r
  end.
End Walk.
Definition start_of (first : bool) : ctx := if first then First else Start.

(** ** The selector that is read back *)
Fixpoint norm_comp (c : comp) {struct c} : list comp :=
  let n (s : sel) := walk First (map (fun x => (x, norm_comp x)) s) in
  match c with
  | Not l => [Not (map n l)]
  | Is l => if should_unwrap l then match l with s :: _ => n s | [] => [] end else [Is (map n l)]
  | Where l => [Where (map n l)]
  | Any p l => [Any p (map n l)]
  | Has l => [Has (map (fun s => match s with Scope :: Comb Descendant :: r => n r | Scope :: Comb k :: r => Scope :: Comb k :: n r | _ => n s end) l)]
  | NthOf t a b l => [NthOf t a b (map n l)]
  | Host (Some s) => [Host (Some (n s))]
  | Slotted s => [Slotted (n s)]
  | CueFn g s => [CueFn g (n s)]
  | _ => [c]
  end.
Definition norm (first : bool) (s : sel) : sel := walk (start_of first) (map (fun x => (x, norm_comp x)) s).
Definition norm_rel (s : sel) : sel :=
  match s with Scope :: Comb Descendant :: r => norm true r | Scope :: Comb k :: r => Scope :: Comb k :: norm true r | _ => norm true s end.

(** ** Tokens *)
(** Simple selectors one after another *)
Inductive units : list tok -> Prop :=
| u_nil : units []
| u_hash s u : units u -> units (Hash s :: u)
| u_class s u : units u -> units (Delim Dot :: Ident s :: u)
| u_square a u : units u -> units (Square a :: u)
| u_one s u : units u -> units (Colon :: Ident s :: u)
| u_one_fun n a u : units u -> units (Colon :: Fun n a :: u)
| u_two s u : units u -> units (Colon :: Colon :: Ident s :: u)
| u_two_fun n a u : units u -> units (Colon :: Colon :: Fun n a :: u)
| u_amp u : units u -> units (Delim Amp :: u).
#[export] Hint Constructors units : core.
Lemma units_app u v : units u -> units v -> units (u ++ v).
Proof. induction 1; cbn [app]; intros; auto. Qed.

Definition begins (t : tok) : bool :=
  match t with Ident _ | Delim Star | Delim Bar | Hash _ | Delim Dot | Square _ | Colon | Delim Amp => true | _ => false end.
Definition begins_simple (t : tok) : bool := match t with Hash _ | Delim Dot | Square _ | Colon | Delim Amp => true | _ => false end.
Definition stop (t : tok) : bool := match t with Ws | Delim Gt | Delim Plus | Delim Tilde => true | _ => false end.
(** The input after a compound *)
Definition stops (l : list item) : Prop := match l with [] => True | (t, _) :: _ => stop t = true end.
Definition no_comma (l : list tok) : Prop := Forall (fun t => t <> Comma) l.

Lemma units_no_comma u : units u -> no_comma u.
Proof. unfold no_comma. induction 1; repeat (constructor; [discriminate|]); auto. Qed.
Lemma units_begin u : units u -> match u with [] => True | t :: _ => begins_simple t = true end.
Proof. destruct 1; cbn; auto. Qed.

Lemma skip_ws cfg pre l : Forall (fun t => t = Ws) pre -> skip (items cfg pre ++ l) = skip l.
Proof. induction pre as [|t pre IH]; intros H; [reflexivity|]. inversion H; subst. cbn. auto. Qed.
Lemma items_app cfg a b : items cfg (a ++ b) = items cfg a ++ items cfg b.
Proof. apply map_app. Qed.

(** ** Token trees *)
Lemma tok_ind' (P : tok -> Prop) :
  (forall t, match t with Fun _ _ | Square _ => False | _ => True end -> P t) ->
  (forall n a, Forall P a -> P (Fun n a)) -> (forall a, Forall P a -> P (Square a)) -> forall t, P t.
Proof.
  intros H0 HF HS. fix IH 1. intros t. destruct t; try (apply H0; exact I).
  - apply HF. induction args; constructor; auto.
  - apply HS. induction args; constructor; auto.
Qed.

(** *** An+B within 32 bits *)
Lemma digits_pos s : forall acc, (0 <= acc)%Z -> AnbModel.all_digits s = true -> (0 <= digits_value acc s)%Z.
Proof.
  induction s as [|c s IH]; intros acc H D; [exact H|]. cbn [AnbModel.all_digits] in D. apply andb_true_iff in D. destruct D as [D1 D2].
  cbn [digits_value]. apply IH; [|exact D2]. unfold is_digit in D1. apply andb_true_iff in D1. destruct D1 as [D1 _]. apply Nat.leb_le in D1. lia.
Qed.
Lemma take_digits s : AnbModel.all_digits (fst (take is_digit s)) = true.
Proof. induction s as [|c s IH]; [reflexivity|]. cbn [take]. destruct (is_digit c) eqn:D; [|reflexivity]. destruct (take is_digit s). cbn in *. rewrite D. exact IH. Qed.
Lemma clamp_int z : AnbSpec.int32 (clamp z).
Proof. unfold AnbSpec.int32, clamp. lia. Qed.
Definition tok_int (t : ntok) : Prop :=
  match t with Num sg v => AnbSpec.int32 v /\ (sg = false -> (0 <= v)%Z) | Dim _ v _ => AnbSpec.int32 v | _ => True end.
Lemma number_int sg neg s : (sg = false -> neg = false) -> tok_int (fst (number sg neg s)).
Proof.
  intros H. unfold number. pose proof (take_digits s) as D. destruct (take is_digit s) as [d r]. cbn [fst] in D. destruct (not_integer r); [exact I|].
  destruct (starts_ident r); [destruct (take is_name r)|]; cbn [fst tok_int]; [apply clamp_int|]. split; [apply clamp_int|].
  intros E. rewrite (H E). pose proof (digits_pos d 0 (Z.le_refl 0) D). unfold clamp. lia.
Qed.
Lemma next_int s t r : next s = Some (t, r) -> tok_int t.
Proof.
  unfold next. destruct s as [|c s]; [discriminate|].
  destruct (is_ws c); [intros H; injection H as <- _; exact I|].
  destruct (is_digit c).
  { intros H. pose proof (number_int false false (String c s) (fun _ => eq_refl)) as K. injection H as H. rewrite H in K. exact K. }
  destruct (_ && _)%bool.
  { intros H. pose proof (number_int true false s (fun _ => eq_refl)) as K. injection H as H. rewrite H in K. exact K. }
  destruct (_ && _)%bool.
  { intros H. assert (true = false -> true = false) as E by auto. pose proof (number_int true true s E) as K. injection H as H. rewrite H in K. exact K. }
  destruct (starts_ident _); [destruct (take is_name _); intros H; injection H as <- _; exact I|intros H; injection H as <- _; exact I].
Qed.
Lemma next_skip_int s t r : next_skip s = Some (t, r) -> tok_int t.
Proof. unfold next_skip. destruct (next s) as [[[] r0]|] eqn:E; intros H; try (injection H as <- <-; apply next_int in E; exact E); [apply next_int in H; exact H|discriminate]. Qed.
Lemma n_dash_int s v : n_dash_digits s = Some v -> AnbSpec.int32 v.
Proof. unfold n_dash_digits. destruct s as [|n [|[[] [] [] [] [] [] [] []] [|x d]]]; try discriminate. destruct (_ && _)%bool; [|discriminate]. intros H. injection H as <-. apply clamp_int. Qed.
Lemma signless_int a sg s x y r : AnbSpec.int32 a -> (sg = 1 \/ sg = -1)%Z -> parse_signless_b a sg s = Some (x, y, r) -> AnbSpec.int32 x /\ AnbSpec.int32 y.
Proof.
  intros A S. unfold parse_signless_b. destruct (next_skip s) as [[[|[] b| | | |] r0]|] eqn:E; try discriminate.
  intros H. injection H as <- <- _. apply next_skip_int in E. destruct E as [E1 E2]. specialize (E2 eq_refl). unfold AnbSpec.int32 in *. lia.
Qed.
Lemma parse_b_int a s x y r : AnbSpec.int32 a -> parse_b a s = Some (x, y, r) -> AnbSpec.int32 x /\ AnbSpec.int32 y.
Proof.
  intros A. unfold parse_b. destruct (next_skip s) as [[t r0]|] eqn:E; [|intros H; injection H as <- <- _; split; [exact A|unfold AnbSpec.int32; lia]].
  assert (Z0 : AnbSpec.int32 0) by (unfold AnbSpec.int32; lia).
  destruct t as [|[] b| | |[[] [] [] [] [] [] [] []] |]; try (intros H; injection H as <- <- _; split; assumption);
    try (apply signless_int; [exact A|lia]).
  intros H. injection H as <- <- _. apply next_skip_int in E. destruct E. auto.
Qed.
Lemma anb_int s a b : read_anb s = Some (a, b) -> AnbSpec.int32 a /\ AnbSpec.int32 b.
Proof.
  unfold read_anb. destruct (parse_nth s) as [[[x y] r]|] eqn:E; [|discriminate]. destruct (String.eqb _ _); [|discriminate].
  intros H. injection H as <- <-. revert E. unfold parse_nth.
  assert (L : forall z, (-2147483648 <= z <= 2147483647)%Z -> AnbSpec.int32 z) by auto.
  destruct (next_skip s) as [[t r0]|] eqn:Q; [|discriminate]. apply next_skip_int in Q.
  assert (ND : forall a i, AnbSpec.int32 a -> match n_dash_digits i with Some b => Some (a, b, r0) | None => None end = Some (x, y, r) -> AnbSpec.int32 x /\ AnbSpec.int32 y).
  { intros a i A. destruct (n_dash_digits i) eqn:D; [|discriminate]. intros H. injection H as <- <- _. split; [exact A|exact (n_dash_int _ _ D)]. }
  assert (B1 : forall a r1, AnbSpec.int32 a -> parse_b a r1 = Some (x, y, r) -> AnbSpec.int32 x /\ AnbSpec.int32 y) by (intros; eapply parse_b_int; eauto).
  assert (B2 : forall a r1, AnbSpec.int32 a -> parse_signless_b a (-1) r1 = Some (x, y, r) -> AnbSpec.int32 x /\ AnbSpec.int32 y) by (intros; eapply signless_int; eauto).
  destruct t as [|sg v|sg v u|i|dl|]; try discriminate.
  - intros H. injection H as <- <- _. destruct Q. split; [apply L; lia|assumption].
  - repeat match goal with |- context [if AnimModel.is_kw ?k u then _ else _] => destruct (AnimModel.is_kw k u) end; [apply B1|apply B2|apply ND]; exact Q.
  - repeat match goal with |- context [if AnimModel.is_kw ?k i then _ else _] => destruct (AnimModel.is_kw k i) end;
      try (intros H; injection H as <- <- _; split; apply L; lia); try (apply B1; apply L; lia); try (apply B2; apply L; lia).
    destruct i as [|[[] [] [] [] [] [] [] []] i']; try discriminate; apply ND; apply L; lia.
  - destruct dl as [[] [] [] [] [] [] [] []]; try discriminate. destruct (next r0) as [[[| | |i| |] r1]|]; try discriminate.
    repeat match goal with |- context [if AnimModel.is_kw ?k i then _ else _] => destruct (AnimModel.is_kw k i) end;
      try (apply B1; apply L; lia); try (apply B2; apply L; lia).
    destruct (n_dash_digits i) eqn:D; [|discriminate]. intros H. injection H as <- <- _. split; [apply L; lia|exact (n_dash_int _ _ D)].
Qed.

(** ** Reading back *)
Section Back.
Variable cfg : config.
Notation T := (flat_map (print_comp cfg)).
Notation N := (flat_map norm_comp).
Notation wt s := (map (fun x => (x, print_comp cfg x)) s).
Notation wn s := (map (fun x => (x, norm_comp x)) s).
Definition core (s : state) := (s.(after_slotted), s.(after_part), s.(after_element), s.(no_combinators), s.(after_scrollbar), s.(after_transition)).
Definition le (s1 s : state) : Prop := core s1 = core s /\ (s1.(no_pseudos) = true -> s.(no_pseudos) = true).
(** Neither a type selector nor one of the combinators that are written *)
Definition plain (c : comp) : bool :=
  match c with
  | AnyNs | NoNs | Ns _ | Univ | Local _ => false
  | Comb k => match k with PseudoElement | SlotAssignment | PartComb => true | _ => false end
  | _ => true
  end.
Record reads (st st' : state) (cs : list comp) : Prop := Reads {
  r_units : units (T cs);
  r_plain : Forall (fun c => plain c = true) cs;
  r_np : st'.(no_pseudos) = st.(no_pseudos);
  r_nc : st'.(no_combinators) = st.(no_combinators);
  r_core : existsb is_comb cs = false -> core st' = core st;
  r_mono : after_pseudo st = true -> after_pseudo st' = true;
  r_comb : after_pseudo st' = false -> existsb is_comb cs = false;
  r_solid : cs <> [] -> T cs <> [];
  r_full : cs <> [] -> N cs <> [];
  r_read : forall st1, le st1 st -> exists st2,
    core st2 = core st' /\ st2.(no_pseudos) = st1.(no_pseudos) /\ st2.(after_nesting) = st1.(after_nesting) || existsb nests cs /\
    forall rest, simples cfg st1 (items cfg (T cs) ++ rest) = prepend (N cs) (simples cfg st2 rest)
}.

Lemma core_pseudo a b : core a = core b -> after_pseudo a = after_pseudo b.
Proof. unfold core, after_pseudo. congruence. Qed.
Lemma prepend_app a b r : prepend a (prepend b r) = prepend (a ++ b) r.
Proof. destruct r as [st [[x l]|]]; unfold prepend; try rewrite app_assoc; reflexivity. Qed.
Lemma prepend_nil r : prepend [] r = r.
Proof. destruct r as [st [[x l]|]]; reflexivity. Qed.

Lemma reads_nil st : reads st st [].
Proof.
  constructor; cbn; auto; try congruence. intros st1 [L1 L2]. exists st1. rewrite orb_false_r. repeat split; auto.
  intros. rewrite prepend_nil. reflexivity.
Qed.
Lemma reads_app st sa st' a b : reads st sa a -> reads sa st' b -> reads st st' (a ++ b).
Proof.
  intros A B. destruct A, B. constructor.
  - rewrite flat_map_app. auto using units_app.
  - apply Forall_app. auto.
  - congruence.
  - congruence.
  - rewrite existsb_app, orb_false_iff. intros [H1 H2]. rewrite r_core1, r_core0; auto.
  - auto.
  - intros H. rewrite existsb_app, (r_comb1 H), orb_false_r. apply r_comb0. destruct (after_pseudo sa) eqn:E; auto. rewrite r_mono1 in H; auto.
  - rewrite flat_map_app. intros H E. apply app_eq_nil in E. destruct E as [E1 E2]. destruct a; [|apply r_solid0; [discriminate|exact E1]]. destruct b; [apply H; reflexivity|apply r_solid1; [discriminate|exact E2]].
  - rewrite flat_map_app. intros H E. apply app_eq_nil in E. destruct E as [E1 E2]. destruct a; [|apply r_full0; [discriminate|exact E1]]. destruct b; [apply H; reflexivity|apply r_full1; [discriminate|exact E2]].
  - intros st1 L. destruct (r_read0 st1 L) as (s2 & C2 & P2 & N2 & R2).
    destruct (r_read1 s2) as (s3 & C3 & P3 & N3 & R3).
    { split; [congruence|]. destruct L. rewrite P2, r_np0. auto. }
    exists s3. rewrite existsb_app. repeat split; try congruence.
    + rewrite N3, N2, orb_assoc. reflexivity.
    + intros. rewrite !flat_map_app, items_app, <- app_assoc, R2, R3, prepend_app. reflexivity.
Qed.

(** What a function is read as can be read back *)
Definition good (i : item) : Prop := forall e st st' s cs st2, e = true \/ match fst i with Fun n _ => e = css2_element n | _ => True end -> snd i e st = (st', Some s) -> push_simple st' s = (cs, st2) -> Forall (fine_comp cfg) cs -> reads st st2 cs.

(** A component that leaves the state alone *)
Lemma reads_static st c : plain c = true -> is_comb c = false -> nests c = false -> units (print_comp cfg c) -> print_comp cfg c <> [] -> norm_comp c = [c] ->
  (forall st1, le st1 st -> forall rest, simples cfg st1 (items cfg (print_comp cfg c) ++ rest) = prepend [c] (simples cfg st1 rest)) -> reads st st [c].
Proof.
  intros Hp Hc Hn Hu Hs Hnorm H. constructor; cbn [flat_map existsb]; rewrite ?app_nil_r; auto.
  - rewrite Hc. auto.
  - rewrite Hnorm. discriminate.
  - intros st1 L. exists st1. rewrite Hn. destruct L as [L1 L2]. cbn [orb]. rewrite orb_false_r, Hnorm. repeat split; auto.
    intros. rewrite ?app_nil_r. apply H. split; auto.
Qed.

Lemma reads_id st s : after_pseudo st = false -> reads st st [Id s].
Proof. intros H. apply reads_static; try reflexivity; cbn; auto; try discriminate. intros st1 [L _] rest. rewrite (core_pseudo _ _ L), H. reflexivity. Qed.
Lemma reads_class st s : after_pseudo st = false -> reads st st [Class s].
Proof. intros H. apply reads_static; try reflexivity; cbn; auto; try discriminate. intros st1 [L _] rest. rewrite (core_pseudo _ _ L), H. reflexivity. Qed.

Lemma reads_nesting st : cfg.(nesting_allowed) = true -> reads st (set_nesting true st) [Nesting].
Proof.
  intros H. constructor; cbn; auto; try discriminate. intros st1 [L1 L2]. exists (set_nesting true st1). repeat split; auto.
  intros. rewrite H. reflexivity.
Qed.
Lemma set_nesting_id b st : after_nesting st = true -> set_nesting b st = st.
Proof. destruct st; cbn. intros ->. reflexivity. Qed.
Lemma core_nesting b st : core (set_nesting b st) = core st.
Proof. reflexivity. Qed.
Lemma reads_state st s1 s2 cs : reads st s1 cs -> core s1 = core s2 -> no_pseudos s1 = no_pseudos s2 -> reads st s2 cs.
Proof.
  intros R C P. destruct R. assert (NC : no_combinators s1 = no_combinators s2) by (unfold core in C; congruence).
  constructor; auto; try congruence; rewrite <- ?(core_pseudo _ _ C), <- ?C; auto.
Qed.

(** *** Attributes *)
Lemma attribute_back l c : attribute cfg l = Some c ->
  exists a, print_comp cfg c = [Square a] /\ attribute cfg (map (fun t => (t, fun _ s => (s, None))) a) = Some c /\ norm_comp c = [c] /\ plain c = true /\ is_comb c = false /\ nests c = false.
Proof.
  unfold attribute at 1. destruct (qualified_name true (skip l)) as [| | |p [name|] r] eqn:Q; try discriminate.
  destruct (skip r) as [|[t f] r1].
  - intros H. destruct p; injection H as <-; eexists; cbn; repeat split; reflexivity.
  - destruct t; try discriminate. destruct (skip r1) as [|[[] f2] r2]; try discriminate.
    + destruct (attribute_flags r2) as [fl|] eqn:F; [|discriminate]. intros H. injection H as <-.
      destruct p; cbn [orb]; [destruct (has_upper name) eqn:U|destruct (has_upper name) eqn:U| |]; (eexists; split; [reflexivity|]; repeat split; try reflexivity);
        unfold attr_value; try destruct (_ && _)%bool; destruct fl; cbn; rewrite ?U; reflexivity.
    + destruct (attribute_flags r2) as [fl|] eqn:F; [|discriminate]. intros H. injection H as <-.
      destruct p; cbn [orb]; [destruct (has_upper name) eqn:U|destruct (has_upper name) eqn:U| |]; (eexists; split; [reflexivity|]; repeat split; try reflexivity);
        unfold attr_value; try destruct (_ && _)%bool; destruct fl; cbn; rewrite ?U; reflexivity.
Qed.
Lemma reads_attribute st l c : after_pseudo st = false -> attribute cfg l = Some c -> reads st st [c].
Proof.
  intros H A. destruct (attribute_back l c A) as (a & P & B & Nc & P1 & C1 & N1).
  apply reads_static; auto; rewrite P; auto; try discriminate.
  intros st1 [L _] rest. cbn [items map app simples]. rewrite (core_pseudo _ _ L), H, B. reflexivity.
Qed.

(** *** Names *)
Lemma keyword_in {A} (t : list (string * A)) n v : keyword t n = Some v -> exists k, In (k, v) t.
Proof.
  unfold keyword. induction t as [|[k x] t IH]; [discriminate|]. cbn [AnimModel.keyword]. destruct (AnimModel.is_kw k n).
  - intros H. injection H as <-. exists k. left. reflexivity.
  - intros H. destruct (IH H) as [k' I]. exists k'. right. exact I.
Qed.
Lemma is_kw_lower k n : is_kw k n = true -> k = lower n.
Proof. unfold is_kw, AnimModel.is_kw. intros H. apply String.eqb_eq in H. symmetry. exact H. Qed.

Definition class_ok (x : string * pclass) : bool :=
  match snd x with
  | PlaceholderShown Moz | PlaceholderShown Ms => true
  | c => match keyword tree_table (class_name c) with None => true | _ => false end && negb (is_kw "only-child" (class_name c)) && negb (css2_element (class_name c)) &&
         match print_class cfg c with [Colon; Ident n] => String.eqb n (class_name c) | _ => false end
  end.
Lemma class_table_ok : forallb class_ok class_table = true.
Proof. reflexivity. Qed.
Lemma class_table_back n c : In (n, c) class_table -> fine_class cfg c -> keyword class_table (class_name c) = Some c.
Proof. intros I. unfold class_table in I. cbn [In] in I. repeat (destruct I as [I|I]; [injection I as <- <-; intros F; try reflexivity; destruct F|]). destruct I. Qed.

Lemma simple_class_core st st1 n : core st1 = core st -> simple_class st1 n = simple_class st n.
Proof.
  destruct st, st1. unfold core. cbn. intros H. injection H as -> -> -> -> -> ->. reflexivity.
Qed.
Lemma css2_lower a b : lower a = lower b -> css2_element a = css2_element b.
Proof. unfold css2_element, is_kw, AnimModel.is_kw. fold lower. intros ->. reflexivity. Qed.
Lemma fine_class_of c : fine_comp cfg (PClass c) -> fine_class cfg c.
Proof. intros H. inversion H; subst; [assumption|contradiction]. Qed.
Lemma fine_element_of c : fine_comp cfg (PElement c) -> fine_element cfg c.
Proof. intros H. inversion H; subst; [assumption|contradiction]. Qed.

(** A class is written with a name that stands for it *)
Lemma simple_class_back st n c : css2_element n = false -> simple_class st n = Some c -> fine_comp cfg c ->
  exists pn, print_comp cfg c = [Colon; Ident pn] /\ css2_element pn = false /\ simple_class st pn = Some c /\
    norm_comp c = [c] /\ plain c = true /\ is_comb c = false /\ nests c = false.
Proof.
  intros Q. unfold simple_class. destruct (after_slotted st) eqn:SL; [discriminate|].
  assert (TREE : forall c, keyword tree_table n = Some c ->
    exists pn, print_comp cfg c = [Colon; Ident pn] /\ css2_element pn = false /\ keyword tree_table pn = Some c /\ norm_comp c = [c] /\ plain c = true /\ is_comb c = false /\ nests c = false).
  { intros x K. apply keyword_in in K. destruct K as [k I]. unfold tree_table in I. cbn [In] in I.
    repeat (destruct I as [I|I]; [injection I as <- <-; eexists; repeat split; reflexivity|]). destruct I. }
  destruct (if allows_tree st then keyword tree_table n else None) as [x|] eqn:K.
  - intros H F. injection H as <-. destruct (allows_tree st); [|discriminate]. destruct (TREE x K) as (pn & A & B & C & D). exists pn. rewrite C. tauto.
  - destruct (after_transition st && is_kw "only-child" n) eqn:OC.
    + intros H F. injection H as <-. exists "only-child"%string. repeat split; try reflexivity. apply andb_true_iff in OC. destruct OC as [OC1 OC2].
      destruct (allows_tree st); [reflexivity|]. rewrite OC1. reflexivity.
    + set (k := match keyword class_table n with Some c => c | None => CustomClass n end).
      intros H F.
      assert (Hc : c = PClass k).
      { destruct (after_scrollbar st); [|destruct (after_element st)]; match type of H with (if ?b then _ else _) = _ => destruct b end; congruence. }
      subst c. apply fine_class_of in F.
      assert (PN : exists pn, print_comp cfg (PClass k) = [Colon; Ident pn] /\ css2_element pn = false /\ (if allows_tree st then keyword tree_table pn else None) = None /\
                   (after_transition st && is_kw "only-child" pn) = false /\ match keyword class_table pn with Some c => c | None => CustomClass pn end = k).
      { destruct (keyword class_table n) as [c0|] eqn:KC.
        - subst k. destruct (keyword_in _ _ _ KC) as [kn I].
          pose proof (proj1 (forallb_forall class_ok class_table) class_table_ok _ I) as OK.
          pose proof (class_table_back _ _ I F) as B. unfold class_ok in OK. cbn [snd] in OK.
          exists (class_name c0). rewrite B. cbn [print_comp].
          assert (OK' : match keyword tree_table (class_name c0) with None => true | _ => false end && negb (is_kw "only-child" (class_name c0)) && negb (css2_element (class_name c0)) &&
                   match print_class cfg c0 with [Colon; Ident n] => String.eqb n (class_name c0) | _ => false end = true).
          { destruct c0; try exact OK. destruct p; try exact OK; destruct F. }
          clear OK. apply andb_true_iff in OK'. destruct OK' as [OK OK4]. apply andb_true_iff in OK. destruct OK as [OK OK3]. apply andb_true_iff in OK. destruct OK as [OK1 OK2].
          destruct (keyword tree_table (class_name c0)); [discriminate|]. apply negb_true_iff in OK2, OK3. rewrite OK2, OK3.
          destruct (print_class cfg c0) as [|[] [|[] []]]; try discriminate. apply String.eqb_eq in OK4. subst.
          repeat split; [destruct (allows_tree st); reflexivity|apply andb_false_r].
        - subst k. exists n. cbn [print_comp print_class]. cbn [fine_class] in F. unfold print_class. rewrite F, KC. repeat split; auto. }
      destruct PN as (pn & P1 & P2 & P3 & P4 & P5). exists pn. rewrite P3, P4, P5. repeat split; auto.
Qed.
Lemma reads_simple_class st n c : css2_element n = false -> simple_class st n = Some c -> fine_comp cfg c -> reads st st [c].
Proof.
  intros Q S F. destruct (simple_class_back st n c Q S F) as (pn & P & Q' & S' & Nc & Pl & Cm & Ne).
  apply reads_static; auto; rewrite P; auto; try discriminate.
  intros st1 [L _] rest. cbn [items map app simples]. rewrite Q', (simple_class_core st st1 pn L), S'. reflexivity.
Qed.

(** What is pushed for a pseudo element *)
Lemma reads_element st c : (exists e, c = PElement e) \/ (exists g s, c = CueFn g s) ->
  units (print_comp cfg c) -> print_comp cfg c <> [] ->
  (exists c', norm_comp c = [c'] /\ is_unknown c' = is_unknown c /\ is_scrollbar c' = is_scrollbar c /\ is_transition c' = is_transition c /\
   forall st1, le st1 st -> forall rest, simples cfg st1 (items cfg (print_comp cfg c) ++ rest) = let '(cs, s2) := push_simple st1 (SElement c') in prepend cs (simples cfg s2 rest)) ->
  reads st (snd (push_simple st (SElement c))) (fst (push_simple st (SElement c))).
Proof.
  intros Hc Hu Hs (c' & Hn & Hk & Hsb & Ht & H). cbn [push_simple]. cbn [push_simple] in H. rewrite Hk, Hsb, Ht in H.
  assert (Ne : nests c = false) by (destruct Hc as [[e ->]|(g & s & ->)]; reflexivity).
  assert (Pl : plain c = true) by (destruct Hc as [[e ->]|(g & s & ->)]; reflexivity).
  assert (Cm : is_comb c = false) by (destruct Hc as [[e ->]|(g & s & ->)]; reflexivity).
  destruct (is_unknown c) eqn:U; cbn [fst snd].
  - constructor; cbn [flat_map existsb]; rewrite ?app_nil_r; auto.
    + rewrite Cm. auto.
    + rewrite Hn. discriminate.
    + intros st1 L. exists (set_unknown st1). rewrite Ne, Hn. cbn [orb]. rewrite orb_false_r. split; [destruct L as [L _]; exact L|]. split; [reflexivity|]. split; [reflexivity|].
      intros. apply H. exact L.
  - constructor; cbn [flat_map existsb print_comp print_comb app norm_comp]; rewrite ?app_nil_r; auto.
    + cbn. discriminate.
    + intros. unfold set_element, after_pseudo; cbn. apply orb_true_r.
    + unfold set_element, after_pseudo; cbn. rewrite orb_true_r. discriminate.
    + discriminate.
    + intros st1 L. exists (set_element (is_scrollbar c) (is_transition c) st1). rewrite Ne, Hn. cbn [nests orb app]. rewrite orb_false_r. repeat split; auto.
      * destruct L as [L _]. unfold core in *. cbn. congruence.
Qed.
Lemma le_pseudos st1 st : le st1 st -> allows_pseudos st = true -> allows_pseudos st1 = true.
Proof.
  intros [C P]. unfold allows_pseudos. rewrite !negb_true_iff, !orb_false_iff. unfold core in C. intros [A B]. split; [congruence|].
  destruct (no_pseudos st1); [rewrite P in B; auto|reflexivity].
Qed.
Lemma le_slotted st1 st : le st1 st -> allows_slotted st = true -> allows_slotted st1 = true.
Proof.
  intros [C P]. unfold allows_slotted. rewrite !negb_true_iff, !orb_false_iff. intros [A B]. split; [rewrite (core_pseudo _ _ C); exact A|].
  destruct (no_pseudos st1); [rewrite P in B; auto|reflexivity].
Qed.
Definition element_ok (x : string * pelement) : bool :=
  let e := snd x in
  match keyword element_table (element_name e) with Some _ => true | _ => false end && Bool.eqb (css2_element (element_name e)) (one_colon e) && negb (is_unknown (PElement e)) &&
  match print_element cfg e with [Colon; Ident n] => String.eqb n (element_name e) && one_colon e | [Colon; Colon; Ident n] => String.eqb n (element_name e) && negb (one_colon e) | _ => false end.
Lemma element_table_ok : forallb element_ok element_table = true.
Proof. reflexivity. Qed.
Lemma element_table_back n e : In (n, e) element_table -> keyword element_table (element_name e) = Some e.
Proof. intros I. unfold element_table in I. cbn [In] in I. repeat (destruct I as [I|I]; [injection I as <- <-; reflexivity|]). destruct I. Qed.
Lemma reads_simple_element st n c : simple_element st n = Some c -> fine_comp cfg c -> reads st (snd (push_simple st (SElement c))) (fst (push_simple st (SElement c))).
Proof.
  unfold simple_element. destruct (allows_pseudos st) eqn:AP; [|discriminate]. cbn [negb].
  set (e := match keyword element_table n with Some e => e | None => CustomElement n end).
  destruct (after_slotted st && negb (valid_after_slotted (PElement e))) eqn:V; [discriminate|]. intros H F. injection H as <-. apply fine_element_of in F.
  assert (PN : exists pn, ((print_comp cfg (PElement e) = [Colon; Ident pn] /\ css2_element pn = true) \/ print_comp cfg (PElement e) = [Colon; Colon; Ident pn]) /\
                 match keyword element_table pn with Some e => e | None => CustomElement pn end = e).
  { destruct (keyword element_table n) as [x|] eqn:K.
    - subst e. destruct (keyword_in _ _ _ K) as [kn I]. pose proof (proj1 (forallb_forall element_ok element_table) element_table_ok _ I) as OK.
      pose proof (element_table_back _ _ I) as B. unfold element_ok in OK. cbn [snd] in OK. exists (element_name x). rewrite B in *. split; [|reflexivity].
      apply andb_true_iff in OK. destruct OK as [OK OK4]. apply andb_true_iff in OK. destruct OK as [OK OK3]. apply andb_true_iff in OK. destruct OK as [OK1 OK2].
      apply Bool.eqb_prop in OK2. cbn [print_comp]. destruct (print_element cfg x) as [|[] [|[] [|[] []]]]; try discriminate; apply andb_true_iff in OK4; destruct OK4 as [E O]; apply String.eqb_eq in E; subst.
      + left. split; [reflexivity|congruence].
      + right. reflexivity.
    - subst e. exists n. rewrite K. cbn [fine_element] in F. cbn [print_comp]; unfold print_element; cbn [one_colon]. rewrite F. split; [right; reflexivity|reflexivity]. }
  destruct PN as (pn & P & B).
  assert (SE : forall st1, le st1 st -> simple_element st1 pn = Some (PElement e)).
  { intros st1 L. unfold simple_element. rewrite (le_pseudos _ _ L AP), B. cbn [negb]. replace (after_slotted st1) with (after_slotted st); [rewrite V; reflexivity|]. destruct L as [L _]. unfold core in L. congruence. }
  apply reads_element.
  - left. exists e. reflexivity.
  - destruct P as [[-> _]| ->]; auto.
  - destruct P as [[-> _]| ->]; discriminate.
  - exists (PElement e). repeat split. intros st1 L rest. destruct P as [[-> C2]| ->]; cbn [items map app simples]; rewrite ?C2, (SE st1 L); reflexivity.
Qed.

(** *** Compounds *)
Lemma prepend_some a r st' cs l : prepend a r = (st', Some (cs, l)) -> exists b, cs = a ++ b /\ r = (st', Some (b, l)).
Proof. destruct r as [s [[x y]|]]; cbn; intros H; [|discriminate]. injection H as <- <- <-. eauto. Qed.
Lemma simples_reads k : forall l, List.length l <= k -> Forall good l -> forall st st' cs r, simples cfg st l = (st', Some (cs, r)) -> Forall (fine_comp cfg) cs ->
  reads st st' cs /\ Forall good r.
Proof.
  induction k as [|k IH]; intros l Hl G st st' cs r H F.
  { destruct l; [|cbn in Hl; lia]. cbn in H. injection H as <- <- <-. split; [apply reads_nil|constructor]. }
  assert (STOP : (st, Some ([] : list comp, l)) = (st', Some (cs, r)) -> reads st st' cs /\ Forall good r).
  { intros E. injection E as <- <- <-. split; [apply reads_nil|exact G]. }
  assert (NEXT : forall a s2 l', List.length l' <= k -> Forall good l' -> (Forall (fine_comp cfg) a -> reads st s2 a) -> prepend a (simples cfg s2 l') = (st', Some (cs, r)) -> reads st st' cs /\ Forall good r).
  { intros a s2 l' Hl' Gl Ra E. apply prepend_some in E. destruct E as (b & -> & E). apply Forall_app in F. destruct F as [Fa Fb].
    destruct (IH l' Hl' Gl _ _ _ _ E Fb) as [Rb Gr]. split; [eapply reads_app; [apply Ra; exact Fa|exact Rb]|exact Gr]. }
  assert (APPLY : forall sa o l', List.length l' <= k -> Forall good l' ->
    (forall s a s2, o = Some s -> push_simple sa s = (a, s2) -> Forall (fine_comp cfg) a -> reads st s2 a) ->
    match o with Some s => let '(a, s2) := push_simple sa s in prepend a (simples cfg s2 l') | None => (sa, None) end = (st', Some (cs, r)) -> reads st st' cs /\ Forall good r).
  { intros sa o l' Hl' Gl Ra E. destruct o as [s|]; [|discriminate]. destruct (push_simple sa s) as [a s2] eqn:P. apply (NEXT a s2 l'); auto. intros Fa. apply (Ra s a s2); auto. }
  destruct l as [|[t f] l1]; [cbn in H; injection H as <- <- <-; split; [apply reads_nil|constructor]|].
  inversion G as [|? ? G1 G2]; subst. cbn in Hl.
  destruct t as [|i|h|dl| | |x|o|x|nm ar|ar|j]; cbn [simples] in H; try (apply STOP; exact H).
  - destruct (after_pseudo st) eqn:AP; [discriminate|]. eapply (NEXT [Id h]); [| |intros; apply reads_id; exact AP|exact H]; auto; lia.
  - destruct dl; try (apply STOP; exact H).
    + destruct (after_pseudo st) eqn:AP; [discriminate|]. destruct l1 as [|[[] f1] l2]; try discriminate. inversion G2; subst. cbn in Hl.
      eapply (NEXT [Class s]); [| |intros; apply reads_class; exact AP|exact H]; auto; lia.
    + destruct (nesting_allowed cfg) eqn:NA; [|apply STOP; exact H].
      eapply (NEXT [Nesting]); [| |intros; apply reads_nesting; exact NA|exact H]; auto; lia.
  - destruct l1 as [|[t1 f1] l2]; [discriminate|]. inversion G2 as [|? ? G3 G4]; subst. cbn in Hl.
    destruct t1 as [|i|h|dl| | |x|o|x|nm ar|ar|j]; try discriminate.
    + destruct (css2_element i) eqn:C2.
      * revert H. apply APPLY; [lia|exact G4|]. intros s a s2 Es Ps Fa. destruct (simple_element st i) as [c|] eqn:SE; [|discriminate]. injection Es as <-.
        assert (Fc : fine_comp cfg c). { cbn [push_simple] in Ps. destruct (is_unknown c); injection Ps as <- <-; [inversion Fa; auto|inversion Fa; subst; inversion H2; auto]. }
        pose proof (reads_simple_element st i c SE Fc) as R. rewrite Ps in R. exact R.
      * revert H. apply APPLY; [lia|exact G4|]. intros s a s2 Es Ps Fa. destruct (simple_class st i) as [c|] eqn:SC; [|discriminate]. injection Es as <-.
        cbn in Ps. injection Ps as <- <-. inversion Fa; subst. eapply reads_simple_class; eauto.
    + destruct l2 as [|[t2 f2] l3]; [discriminate|]. inversion G4 as [|? ? G5 G6]; subst. cbn in Hl.
      destruct t2; try discriminate.
      * revert H. apply APPLY; [lia|exact G6|]. intros s' a s2 Es Ps Fa. destruct (simple_element st s) as [c|] eqn:SE; [|discriminate]. injection Es as <-.
        assert (Fc : fine_comp cfg c). { cbn [push_simple] in Ps. destruct (is_unknown c); injection Ps as <- <-; [inversion Fa; auto|inversion Fa; subst; inversion H2; auto]. }
        pose proof (reads_simple_element st s c SE Fc) as R. rewrite Ps in R. exact R.
      * destruct (f2 true st) as [sa o] eqn:Ef. revert H. apply APPLY; [lia|exact G6|]. intros s a s2 -> Ps Fa. eapply (G5 true st sa s a s2); auto.
    + destruct (f1 (css2_element nm) st) as [sa o] eqn:Ef. revert H. apply APPLY; [lia|exact G4|]. intros s a s2 -> Ps Fa. apply (G3 (css2_element nm) st sa s a s2); auto; right; reflexivity.
  - destruct (after_pseudo st) eqn:AP; [discriminate|]. destruct (attribute cfg _) as [c|] eqn:A; [|discriminate].
    eapply (NEXT [c]); [| |intros; eapply reads_attribute; eauto|exact H]; auto; lia.
Qed.

Definition named (t : list comp) : Prop := exists p nm, t = type_comps p nm.
Lemma skip_good l : Forall good l -> Forall good (skip l).
Proof. induction 1 as [|[t f] l G H IH]; [constructor|]. cbn [skip]. destruct t; try exact IH; constructor; auto. Qed.
Lemma explicit_good b p l p' nm r : Forall good l -> explicit_namespace b p l = QSome p' nm r -> Forall good r.
Proof. intros G. destruct l as [|[[] f] l]; try discriminate; cbn. - intros H. injection H as _ _ <-. inversion G; auto. - destruct d; try discriminate. destruct b; try discriminate. intros H. injection H as _ _ <-. inversion G; auto. Qed.
Lemma qualified_good b l p nm r : Forall good l -> qualified_name b l = QSome p nm r -> Forall good r.
Proof.
  intros G. inversion G as [|[t f] l1 G1 G2]; subst; [discriminate|]. destruct t; try discriminate; cbn [qualified_name].
  - inversion G2 as [|[t2 f2] l2 G3 G4]; subst; [intros H; injection H as _ _ <-; constructor|].
    destruct t2; try (intros H; injection H as _ _ <-; exact G2). destruct d; try (intros H; injection H as _ _ <-; exact G2). apply explicit_good. exact G4.
  - destruct d; try discriminate.
    + inversion G2 as [|[t2 f2] l2 G3 G4]; subst; [destruct b; [discriminate|]; intros H; injection H as _ _ <-; constructor|].
      destruct t2; try (destruct b; [discriminate|]; intros H; injection H as _ _ <-; exact G2).
      destruct d; try (destruct b; [discriminate|]; intros H; injection H as _ _ <-; exact G2). apply explicit_good. exact G4.
    + apply explicit_good. exact G2.
Qed.
Lemma compound_reads l st st' cs r : Forall good l -> compound cfg st l = (st', Some (cs, r)) -> Forall (fine_comp cfg) cs ->
  exists n t c, cs = n ++ t ++ c /\ (n = [] \/ (n = [Nesting] /\ cfg.(nesting_allowed) = true)) /\ (t = [] \/ (named t /\ after_pseudo st = false)) /\
    reads st st' (n ++ c) /\ reads (if n then st else set_nesting true st) st' c /\ Forall good r.
Proof.
  intros G. unfold compound.
  set (q := match skip l with (Delim Amp, _) :: r => if cfg.(nesting_allowed) then ([Nesting], set_nesting true st, r) else ([], st, skip l) | _ => ([], st, skip l) end).
  assert (Q : (exists r0, q = ([Nesting], set_nesting true st, r0) /\ nesting_allowed cfg = true /\ Forall good r0) \/ q = ([], st, skip l)).
  { unfold q. pose proof (skip_good l G) as G'. destruct (skip l) as [|[[] f] r0]; auto. destruct d; auto. destruct (nesting_allowed cfg); auto. inversion G'; subst. left. exists r0. auto. }
  assert (TS : forall s0 n0 l0, Forall good l0 -> core s0 = core st -> no_pseudos s0 = no_pseudos st ->
     match type_selector s0 l0 with None => (s0, None) | Some (t, r1) => prepend (n0 ++ t) (simples cfg s0 r1) end = (st', Some (cs, r)) -> Forall (fine_comp cfg) cs ->
     exists t c, cs = n0 ++ t ++ c /\ (t = [] \/ (named t /\ after_pseudo st = false)) /\ reads s0 st' c /\ Forall good r).
  { intros s0 n0 l0 Gl C0 P0. unfold type_selector. rewrite (core_pseudo _ _ C0).
    destruct (qualified_name false l0) as [| | |p nm r1] eqn:QN; try discriminate.
    - intros H F. apply prepend_some in H. destruct H as (b & -> & H). rewrite !Forall_app in F. destruct F as [_ F].
      destruct (simples_reads _ [] (le_n _) (Forall_nil _) _ _ _ _ H F). exists [], b. rewrite app_nil_r. auto.
    - intros H F. apply prepend_some in H. destruct H as (b & -> & H). rewrite !Forall_app in F. destruct F as [_ F].
      destruct (simples_reads _ l0 (le_n _) Gl _ _ _ _ H F). exists [], b. rewrite app_nil_r. auto.
    - destruct (after_pseudo st) eqn:AP; [discriminate|]. intros H F. apply prepend_some in H. destruct H as (b & -> & H). rewrite !Forall_app in F. destruct F as [_ F].
      destruct (simples_reads _ r1 (le_n _) (qualified_good _ _ _ _ _ Gl QN) _ _ _ _ H F). exists (type_comps p nm), b. rewrite app_assoc. unfold named. eauto 10. }
  destruct Q as [(r0 & -> & NA & G0)| ->]; intros H F.
  - destruct (TS _ _ _ G0 (core_nesting _ _) eq_refl H F) as (t & c & E & Ht & R & Gr). exists [Nesting], t, c.
    split; [exact E|]. split; [right; auto|]. split; [exact Ht|]. split; [eapply (reads_app _ _ _ [Nesting]); [apply reads_nesting; exact NA|exact R]|]. split; [exact R|exact Gr].
  - destruct (TS _ _ _ (skip_good _ G) eq_refl eq_refl H F) as (t & c & E & Ht & R & Gr). exists [], t, c. auto 10.
Qed.
End Back.
