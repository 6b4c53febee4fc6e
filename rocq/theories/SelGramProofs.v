(** * Every selector text of the grammar is read as what it stands for *)
From Coq Require Import List Bool ZArith Ascii String Lia.
Import ListNotations.
From Verif Require AnimModel AnbSpec AnbProofs.
From Verif Require Import SelTextModel SelTextSpec SelTextProofs SelTextBack SelTextFns SelGramSpec SelGramWords SelGramParts SelGramNames.
Local Open Scope string_scope.
Local Open Scope list_scope.

Scheme simple_text_min := Minimality for simple_text Sort Prop
with simples_text_min := Minimality for simples_text Sort Prop
with compound_text_min := Minimality for compound_text Sort Prop
with tail_text_min := Minimality for tail_text Sort Prop
with complex_text_min := Minimality for complex_text Sort Prop
with selector_text_min := Minimality for selector_text Sort Prop
with list_text_min := Minimality for list_text Sort Prop
with forgiving_text_min := Minimality for forgiving_text Sort Prop
with relatives_text_min := Minimality for relatives_text Sort Prop
with relative_text_min := Minimality for relative_text Sort Prop.
Combined Scheme grammar_min from simple_text_min, simples_text_min, compound_text_min, tail_text_min, complex_text_min, selector_text_min, list_text_min, forgiving_text_min, relatives_text_min, relative_text_min.

Section Read.
Variable cfg : config.
Notation html := (html_insensitive cfg).
Notation nest := (nesting_allowed cfg).
Notation items := (items cfg).

(** ** What is proved of each relation *)
Definition head_simple (t : list tok) : Prop := match t with x :: _ => begins_simple x = true | [] => False end.
Definition P_simple (m : mode) (t : list tok) (c : comp) : Prop :=
  (forall st rest, pure m st -> simples cfg st (items t ++ rest) = prepend [c] (simples cfg (set_nesting (nests c) st) rest)) /\
  no_comma t /\ head_simple t /\ match t with Delim Amp :: r => r = [] /\ c = Nesting /\ nest = true | _ => True end.
Definition colon (l : list item) : Prop := match l with (Colon, _) :: _ => True | _ => False end.
Definition reads_compound (m : mode) (t : list tok) (cs : list comp) : Prop :=
  forall st pre rest, pure m st -> blank pre -> joined rest -> t <> [] \/ colon rest -> compound cfg st (items (pre ++ t) ++ rest) = prepend cs (simples cfg (set_nesting (existsb nests cs) st) rest).
Definition P_simples (m : mode) (t : list tok) (cs : list comp) : Prop :=
  (forall st rest, pure m st -> simples cfg st (items t ++ rest) = prepend cs (simples cfg (set_nesting (existsb nests cs) st) rest)) /\
  no_comma t /\ (t = [] /\ cs = [] \/ head_simple t /\ cs <> []) /\ reads_compound m t cs.
Definition P_compound (m : mode) (t : list tok) (cs : list comp) : Prop :=
  reads_compound m t cs /\ no_comma t /\ (t = [] /\ cs = [] \/ starts t /\ cs <> []).
Definition P_tail (t : list tok) (cs : list comp) : Prop :=
  (forall st w, pure (Mode false true) st -> blank w -> exists st', simples cfg st (items (t ++ w)) = (st', Some (cs, items w)) /\ after_nesting st' = after_nesting st || existsb nests cs) /\
  no_comma t /\ match t with Colon :: _ => True | _ => False end /\ cs <> [].
Definition P_complex (m : mode) (t : list tok) (s : sel) : Prop :=
  (forall st pre post fuel, pure m st -> blank pre -> blank post -> List.length t < fuel ->
     exists st', selector_loop cfg fuel st (items (pre ++ t ++ post)) = (st', Some (s, [])) /\ after_nesting st' = after_nesting st || existsb nests s) /\
  no_comma t /\ starts t.
(** [imp] adds the nesting selector *)
Definition implied (imp : bool) (st : state) (s : sel) : sel := if imp && negb (after_nesting st) then lead Descendant Nesting s else s.
Definition P_selector (m : mode) (t : list tok) (s : sel) : Prop :=
  (forall st imp, pure m st -> exists st', selector cfg imp st (items t) = (st', Some (implied imp st' s)) /\ after_nesting st' = after_nesting st || existsb nests s /\
     relative_selector cfg imp st (items t) = selector cfg imp st (items t)) /\ no_comma t.
Definition reads_list (one : state -> list item -> state * option sel) (fg : bool) (m : mode) (t : list tok) (l : list sel) : Prop :=
  forall orig acc, pure m orig -> (after_nesting orig = true -> after_nesting acc = true) ->
    exists st', selectors one fg orig acc (split_commas (items t)) = (st', Some l) /\ after_nesting st' = after_nesting acc || existsb (existsb nests) l.
Definition P_list (m : mode) (t : list tok) (l : list sel) : Prop := forall fg, reads_list (selector cfg false) fg m t l.
Definition P_forgiving (m : mode) (t : list tok) (l : list sel) : Prop := reads_list (selector cfg false) true m t l.
Definition P_relatives (m : mode) (t : list tok) (l : list sel) : Prop := reads_list (relative_selector cfg false) true m t l.
Definition P_relative (m : mode) (t : list tok) (s : sel) : Prop :=
  (forall st, pure m st -> exists st', relative_selector cfg false st (items t) = (st', Some s) /\ after_nesting st' = after_nesting st || existsb nests s) /\ no_comma t.

(** ** Simple selectors *)
Lemma simple_of m t c : no_comma t -> head_simple t -> match t with Delim Amp :: r => r = [] /\ c = Nesting /\ nest = true | _ => True end ->
  (forall st rest, pure m st -> simples cfg st (items t ++ rest) = prepend [c] (simples cfg (set_nesting (nests c) st) rest)) -> P_simple m t c.
Proof. intros A B C D. repeat split; assumption. Qed.
Lemma class_case m n c : css2_element n = false -> nests c = false -> (forall st, pure (Mode false false) st -> simple_class st n = Some c) -> P_simple m [Colon; Ident n] c.
Proof.
  intros E N H. apply simple_of; [repeat (constructor; [discriminate|]); constructor|reflexivity|exact I|]. intros st rest P. rewrite N, set_nesting_false. apply class_step; [exact E|].
  apply H. destruct P as (A & B & C & D). repeat split; auto; discriminate.
Qed.
Lemma fun_case m n a c : css2_element n = false -> (forall st, pure m st -> function_class cfg n a (items a) st = (set_nesting (nests c) st, Some (SClass c))) -> P_simple m [Colon; Fun n a] c.
Proof.
  intros E H. apply simple_of; [repeat (constructor; [discriminate|]); constructor|reflexivity|exact I|]. intros st rest P. apply fun_class_step; [exact E|apply H; exact P].
Qed.
Lemma fun_case' m n a c : css2_element n = false -> nests c = false -> (forall st, after_pseudo st = false -> function_class cfg n a (items a) st = (st, Some (SClass c))) -> P_simple m [Colon; Fun n a] c.
Proof. intros E N H. apply fun_case; [exact E|]. intros st P. rewrite N, set_nesting_false. apply H. apply P. Qed.
Lemma nested_case (rel fg : bool) m child st a l : reads_list (if rel then relative_selector cfg false else selector cfg false) fg m a l -> pure m child -> after_nesting child = after_nesting st ->
  nested_list cfg rel fg child st (items a) = (set_nesting (existsb (existsb nests) l) st, Some l).
Proof.
  intros H P N. unfold nested_list, selector_list. destruct (H child child P (fun x => x)) as (st' & E & A). destruct rel; rewrite E, A, N, set_nesting_own; reflexivity.
Qed.
Lemma inner_case st a s : P_selector only_compound a s -> pure only_compound (disallow_both st) -> inner_compound cfg st (items a) = (set_nesting (existsb nests s) st, Some s).
Proof.
  intros [H _] P. unfold inner_compound. destruct (H (disallow_both st) false P) as (st' & E & A & _). rewrite E. cbn [implied andb]. rewrite A. cbn [disallow_both after_nesting]. rewrite set_nesting_own. reflexivity.
Qed.

(** ** Compounds *)
Lemma head_joined t rest : head_simple t -> joined (items t ++ rest).
Proof. destruct t as [|x t]; [intros []|]. cbn. intros H. unfold joins. rewrite H. reflexivity. Qed.
Lemma simples_joined t (cs : list comp) rest : t = [] /\ cs = [] \/ head_simple t /\ cs <> [] -> joined rest -> joined (items t ++ rest).
Proof. intros [[-> _]|[H _]] J; [exact J|apply head_joined; exact H]. Qed.
Lemma skip_head t rest : head_simple t -> skip (items t ++ rest) = items t ++ rest.
Proof. destruct t as [|x t]; [intros []|]. cbn. intros H. destruct x; try discriminate H; reflexivity. Qed.
Lemma blank_items pre t : items (pre ++ t) = items pre ++ items t. Proof. apply items_app. Qed.
(** Without [&] at the start, a compound of simple selectors is read like them *)
Lemma compound_head st pre l : blank pre -> joined l -> skip l = l -> match l with (Delim Amp, _) :: _ => False | _ => True end -> compound cfg st (items pre ++ l) = simples cfg st l.
Proof.
  intros B J S N. unfold compound. rewrite skip_ws by exact B. rewrite S.
  assert (X : forall T (f : list item -> T) (d : T), match l with (Delim Amp, _) :: r => f r | _ => d end = d).
  { intros T f d. destruct l as [|[x g] l]; [reflexivity|]. destruct x; try reflexivity. destruct d0; try reflexivity. destruct N. }
  rewrite (X _ (fun r => if nesting_allowed cfg then ([Nesting], set_nesting true st, r) else ([], st, l)) ([], st, l)). rewrite joined_type by exact J. apply prepend_nil.
Qed.
Lemma existsb_cons (c : comp) l : existsb nests (c :: l) = nests c || existsb nests l. Proof. reflexivity. Qed.
Lemma simples_case m t c r l : P_simple m t c -> P_simples m r l -> P_simples m (t ++ r) (c :: l).
Proof.
  intros (A & N & H & HA) (A' & N' & H' & C').
  assert (S : forall st rest, pure m st -> simples cfg st (items (t ++ r) ++ rest) = prepend (c :: l) (simples cfg (set_nesting (existsb nests (c :: l)) st) rest)).
  { intros st rest P. rewrite items_app, <- app_assoc, (A st _ P), (A' _ _ (pure_nesting m _ st P)), prepend_app, set_nesting_two. reflexivity. }
  assert (HS : head_simple (t ++ r)) by (destruct t; [destruct H|exact H]).
  split; [exact S|]. split; [apply Forall_app; split; assumption|]. split; [right; split; [exact HS|discriminate]|].
  intros st pre rest P B J _. rewrite items_app, <- app_assoc. destruct t as [|x t]; [destruct H|].
  assert (D : x = Delim Amp \/ x <> Delim Amp) by (destruct x; try (right; discriminate); destruct d; auto; right; discriminate).
  destruct D as [->|D].
  - destruct HA as (-> & -> & E). cbn [app] in *. unfold compound. rewrite skip_ws by exact B. cbn [items SelTextModel.items map app skip]. rewrite E. fold (items r).
    rewrite joined_type by (apply (simples_joined r l); assumption). rewrite (A' _ _ (pure_nesting m _ st P)), prepend_app, set_nesting_two. reflexivity.
  - rewrite compound_head; [apply S; exact P|exact B|apply head_joined; exact HS|apply skip_head; exact HS|]. cbn. destruct x; try exact I. destruct d; try exact I. contradiction.
Qed.
Lemma no_simples m : P_simples m [] [].
Proof.
  assert (S : forall st rest, pure m st -> simples cfg st (items [] ++ rest) = prepend [] (simples cfg (set_nesting (existsb nests []) st) rest)).
  { intros st rest P. rewrite prepend_nil. cbn [existsb]. rewrite set_nesting_false. reflexivity. }
  split; [exact S|]. split; [constructor|]. split; [left; auto|]. intros st pre rest P B J [N|N]; [contradiction|]. rewrite items_app, <- app_assoc. cbn [items SelTextModel.items map app].
  rewrite compound_head; [|exact B|exact J|destruct rest as [|[[] ?] ?]; try reflexivity; destruct N|destruct rest as [|[[] ?] ?]; try exact I; destruct N].
  apply (S st rest P).
Qed.
Lemma begins_head t : head_simple t -> starts t.
Proof. destruct t as [|x t]; [intros []|]. cbn. destruct x; try discriminate; try reflexivity. destruct d; try discriminate; reflexivity. Qed.
Lemma compound_simples m t cs : P_simples m t cs -> P_compound m t cs.
Proof. intros (A & N & H & C). split; [exact C|]. split; [exact N|]. destruct H as [H|[H E]]; [left; exact H|right; split; [apply begins_head; exact H|exact E]]. Qed.
Lemma type_no_amp y ty t rest : type_text y ty -> match items (y ++ t) ++ rest with (Delim Amp, _) :: _ => False | _ => True end.
Proof. destruct 1; exact I. Qed.
Lemma type_skip y ty l : type_text y ty -> skip (items y ++ l) = items y ++ l.
Proof. destruct 1; reflexivity. Qed.
Lemma existsb_app' (a b : list comp) : existsb nests (a ++ b) = existsb nests a || existsb nests b. Proof. apply existsb_app. Qed.
Lemma compound_with_type m y ty t cs : type_text y ty -> P_simples m t cs -> P_compound m (y ++ t) (ty ++ cs).
Proof.
  intros T (A & N & H & C). destruct (type_starts y ty T) as (S & NC & Q & NE).
  split; [|split; [apply Forall_app; split; assumption|right; split; [destruct y; [destruct S|exact S]|intros E; apply app_eq_nil in E; tauto]]].
  intros st pre rest P B J _. rewrite !items_app, <- !app_assoc. unfold compound. rewrite skip_ws by exact B. rewrite (type_skip y ty _ T).
  assert (X : forall T' (f : list item -> T') (d : T'), match items y ++ items t ++ rest with (Delim Amp, _) :: r => f r | _ => d end = d) by (intros T' f d; destruct T; reflexivity).
  rewrite (X _ (fun r => if nesting_allowed cfg then ([Nesting], set_nesting true st, r) else ([], st, items y ++ items t ++ rest)) ([], st, items y ++ items t ++ rest)).
  rewrite (type_read cfg st y ty _ T); [|apply P|apply (simples_joined t cs); assumption]. rewrite (A st rest P), prepend_app, existsb_app', Q. reflexivity.
Qed.
Lemma compound_with_nesting m y ty t cs : nest = true -> type_text y ty -> P_simples m t cs -> P_compound m (Delim Amp :: y ++ t) (Nesting :: ty ++ cs).
Proof.
  intros E T (A & N & H & C). destruct (type_starts y ty T) as (S & NC & Q & NE).
  split; [|split; [constructor; [discriminate|apply Forall_app; split; assumption]|right; split; [reflexivity|discriminate]]].
  intros st pre rest P B J _. rewrite items_app, <- app_assoc. unfold compound. rewrite skip_ws by exact B. cbn [items SelTextModel.items map app skip]. fold (items (y ++ t)). rewrite E.
  rewrite items_app, <- app_assoc. rewrite (type_read cfg _ y ty _ T); [|apply P|apply (simples_joined t cs); assumption].
  rewrite (A _ rest (pure_nesting m true st P)), prepend_app, set_nesting_two. reflexivity.
Qed.

(** ** Pseudo elements at the end *)
Lemma blank_stops w : blank w -> stops (items w).
Proof. destruct 1 as [|t w -> H]; [exact I|reflexivity]. Qed.
Lemma push_known st c : known c = true -> push_simple st (SElement c) = ([Comb PseudoElement; c], set_element (is_scrollbar c) (is_transition c) st).
Proof. intros H. cbn. replace (is_unknown c) with false; [reflexivity|]. destruct c; try discriminate H; try reflexivity. destruct e; try discriminate H; reflexivity. Qed.
Lemma element_tail st c t cs w : known c = true -> is_scrollbar c = false -> nests c = false -> after_slotted st = false -> after_scrollbar st = false -> states action_names t cs -> blank w ->
  exists st', prepend (fst (push_simple st (SElement c))) (simples cfg (snd (push_simple st (SElement c))) (items (t ++ w))) = (st', Some ([Comb PseudoElement; c] ++ cs, items w)) /\
    after_nesting st' = after_nesting st || existsb nests ([Comb PseudoElement; c] ++ cs).
Proof.
  intros K B N S R T W. rewrite push_known by exact K. cbn [fst snd]. rewrite items_app, (states_actions cfg _ t cs); [|split; [exact S|cbn; rewrite R, B; reflexivity]|exact T].
  rewrite simples_stop by (apply blank_stops; exact W). eexists. split; [cbn [prepend]; rewrite app_nil_r; reflexivity|]. cbn. rewrite N. cbn [orb]. rewrite (proj1 (states_quiet _ t cs T)), orb_false_r. reflexivity.
Qed.
Lemma unknown_tail st c t cs w : is_unknown c = true -> nests c = false -> after_slotted st = false -> after_scrollbar st = false -> states action_names t cs -> blank w ->
  exists st', prepend (fst (push_simple st (SElement c))) (simples cfg (snd (push_simple st (SElement c))) (items (t ++ w))) = (st', Some (c :: cs, items w)) /\
    after_nesting st' = after_nesting st || existsb nests (c :: cs).
Proof.
  intros K N S R T W. cbn [push_simple]. rewrite K. cbn [fst snd]. rewrite items_app, (states_actions cfg _ t cs); [|split; assumption|exact T].
  rewrite simples_stop by (apply blank_stops; exact W). eexists. split; [cbn [prepend]; rewrite app_nil_r; reflexivity|]. cbn. rewrite N. cbn [orb]. rewrite (proj1 (states_quiet _ t cs T)), orb_false_r. reflexivity.
Qed.
Lemma pure_quiet st : pure (Mode false true) st -> after_slotted st = false /\ after_scrollbar st = false /\ after_pseudo st = false /\ open_element st.
Proof. intros P. pose proof (pure_open st P) as O. destruct P as (A & B & _). destruct O as (S & O). repeat split; tauto. Qed.
Definition tail_parts (t : list tok) (cs : list comp) : Prop := no_comma t /\ match t with Colon :: _ => True | _ => False end /\ cs <> [].
Lemma tail_named n k e names t cs : looked element_table (fun c => c) names -> forallb (fun x => known (PElement (snd x)) && negb (is_scrollbar (PElement (snd x)))) names = true -> In (k, e) names -> word k n -> states action_names t cs ->
  P_tail ([Colon; Colon; Ident n] ++ t) ([Comb PseudoElement; PElement e] ++ cs).
Proof.
  intros L F I W T. destruct (states_quiet _ t cs T) as [_ NC]. pose proof (in_all _ names (k, e) F I) as K. cbn [snd] in K. apply andb_prop in K. destruct K as [K B]. apply negb_true_iff in B.
  split; [|repeat split; [repeat (constructor; [discriminate|]); exact NC|discriminate]].
  intros st w P Bw. destruct (pure_quiet st P) as (S & R & A & O). rewrite <- app_assoc, items_app, (element_step cfg st n (PElement e)); [|exact (element_read names st n k e L O I W)].
  apply element_tail; auto.
Qed.
Lemma tail_fun n a c t cs : no_comma t -> (forall st, pure (Mode false true) st -> function_element cfg n a (items a) st = (st, Some (SElement c))) -> known c = true -> is_scrollbar c = false -> nests c = false -> states action_names t cs ->
  P_tail ([Colon; Colon; Fun n a] ++ t) ([Comb PseudoElement; c] ++ cs).
Proof.
  intros NC H K B N T. split; [|repeat split; [repeat (constructor; [discriminate|]); exact NC|discriminate]].
  intros st w P Bw. destruct (pure_quiet st P) as (S & R & A & O). rewrite <- app_assoc, items_app, (fun_element_step cfg st st n a (SElement c)) by exact (H st P). apply element_tail; auto.
Qed.

(** ** Complex selectors *)
Lemma prepend_some_eq a st x l : prepend a (st, Some (x, l)) = (st, Some (a ++ x, l)). Proof. reflexivity. Qed.
Lemma loop_end m t cs st pre post fuel : P_compound m t cs -> cs <> [] -> pure m st -> blank pre -> blank post -> 0 < fuel ->
  exists st', selector_loop cfg fuel st (items (pre ++ t ++ post)) = (st', Some (cs, [])) /\ after_nesting st' = after_nesting st || existsb nests cs.
Proof.
  intros (C & N & H) NE P B B' F. destruct fuel as [|fuel]; [lia|]. cbn [selector_loop].
  rewrite app_assoc, items_app, (C st pre (items post) P B); [|destruct B' as [|x post -> B']; [exact I|reflexivity]|left; intros ->; destruct H as [[_ ->]|[[] _]]; contradiction].
  rewrite simples_stop by (apply blank_stops; exact B'). rewrite prepend_some_eq, app_nil_r. destruct cs as [|c cs]; [contradiction|].
  destruct (after_pseudo (set_nesting _ st)) eqn:E; [destruct P as (A & _); change (after_pseudo st = true) in E; congruence|].
  assert (X : forall b, read_combinator cfg b (items post) = CEnd) by (clear -B'; induction B' as [|x post -> B' IH]; [reflexivity|intros b; cbn; apply IH]). rewrite X. eexists. split; reflexivity.
Qed.
Lemma loop_tail m t cs y ys st pre post fuel : P_compound m t cs -> elems m = true -> P_tail y ys -> pure m st -> blank pre -> blank post -> 0 < fuel ->
  exists st', selector_loop cfg fuel st (items (pre ++ (t ++ y) ++ post)) = (st', Some (cs ++ ys, [])) /\ after_nesting st' = after_nesting st || existsb nests (cs ++ ys).
Proof.
  intros (C & N & H) El (T & NC & Hd & NE) P B B' F. destruct fuel as [|fuel]; [lia|]. cbn [selector_loop].
  assert (Co : colon (items (y ++ post))) by (destruct y as [|[] y]; try destruct Hd; exact I).
  rewrite <- (app_assoc t), (app_assoc pre), (items_app _ (pre ++ t)), (C st pre (items (y ++ post)) P B); [|destruct y as [|[] y]; try destruct Hd; reflexivity|right; exact Co].
  destruct (T (set_nesting (existsb nests cs) st) post) as (st' & E & A); [apply (pure_elems m); [exact El|exact P]|exact B'|]. rewrite E, prepend_some_eq.
  assert (NE' : cs ++ ys <> []) by (intros X; apply app_eq_nil in X; tauto). destruct (cs ++ ys) as [|c0 l0] eqn:Ec; [contradiction|]. rewrite <- Ec. exists st'. split.
  - assert (X : forall b, read_combinator cfg b (items post) = CEnd) by (clear -B'; induction B' as [|x post -> B' IH]; [reflexivity|intros b; cbn; apply IH]). rewrite X. unfold SelTextModel.items. rewrite skip_blank by exact B'. destruct (after_pseudo st'); reflexivity.
  - rewrite A, after_set, existsb_app', orb_assoc. reflexivity.
Qed.
Lemma starts_app a b : starts a -> starts (a ++ b). Proof. destruct a; [intros []|exact (fun H => H)]. Qed.
Lemma loop_more m t cs y k r s : P_compound m t cs -> cs <> [] -> combs m = true -> comb_text (deep cfg) y k -> P_complex m r s -> P_complex m (t ++ y ++ r) (cs ++ Comb k :: s).
Proof.
  intros (C & N & H) NE Co K (R & NC & S). destruct (comb_joins cfg y k r [] K) as [_ Nk]. assert (St : starts t) by (destruct H as [[_ ->]|[H _]]; [contradiction|exact H]).
  split; [|split; [apply Forall_app; split; [exact N|apply Forall_app; split; assumption]|apply starts_app; exact St]].
  intros st pre post fuel P B B' F. destruct fuel as [|fuel]; [lia|]. cbn [selector_loop]. rewrite <- !app_assoc. rewrite (app_assoc pre t), (items_app _ (pre ++ t)).
  assert (J : joined (items (y ++ r ++ post))) by (pose proof (proj1 (comb_joins cfg y k r (items post) K)) as J; rewrite items_app, <- app_assoc, <- items_app, <- items_app in J; exact J).
  rewrite (C st pre (items (y ++ r ++ post)) P B J); [|left; intros ->; destruct St].
  assert (Hs : forall st0, simples cfg st0 (items (y ++ r ++ post)) = (st0, Some ([], items (y ++ r ++ post)))).
  { intros st0. clear - K S. assert (Hw : forall w t X, blank w -> match t with Delim (Gt | Plus | Tilde | Slash) => True | _ => False end -> simples cfg st0 (items ((w ++ t :: X) ++ r ++ post)) = (st0, Some ([], items ((w ++ t :: X) ++ r ++ post)))).
    { intros w t X W T. destruct W as [|t' w -> W]; [|reflexivity]. destruct t; try destruct T; reflexivity || (destruct d; try destruct T; reflexivity). }
    destruct K as [w [W Nw]|w w' W W'|w w' W W'|w w' W W'|w w' D W W'|w n w' D W Wn W']; try (apply Hw; [exact W|exact I]). destruct W as [|t' w -> W]; [contradiction|reflexivity]. }
  rewrite Hs, prepend_some_eq, app_nil_r. destruct cs as [|c cs]; [contradiction|].
  destruct (after_pseudo (set_nesting _ st)) eqn:E; [destruct P as (A & _); change (after_pseudo st = true) in E; congruence|].
  destruct (comb_read cfg y k r (items post) K S) as (w & W & Rc). rewrite items_app, <- app_assoc, <- items_app, <- items_app in Rc. rewrite Rc.
  destruct (no_combinators (set_nesting _ st)) eqn:Nc; [destruct P as (_ & _ & _ & D & _); change (no_combinators st = true) in Nc; rewrite (D Co) in Nc; discriminate Nc|].
  rewrite <- items_app, <- app_assoc. destruct (R (set_nesting (existsb nests (c :: cs)) st) w post fuel) as (st' & E' & A); [exact P|exact W|exact B'|rewrite !app_length in F; destruct t; [destruct St|]; cbn [List.length] in F; lia|].
  rewrite E', prepend_some_eq. exists st'. split; [rewrite <- app_assoc; reflexivity|]. rewrite A, after_set, existsb_app', <- orb_assoc. reflexivity.
Qed.
Lemma selector_case m w t w' s : blank w -> P_complex m t s -> blank w' -> P_selector m (w ++ t ++ w') s.
Proof.
  intros B (R & NC & S) B'. split; [|apply Forall_app; split; [apply blank_comma; exact B|apply Forall_app; split; [exact NC|apply blank_comma; exact B']]].
  intros st imp P. destruct (R st w w' (Datatypes.S (List.length (items (w ++ t ++ w')))) P B B') as (st' & E & A).
  { unfold SelTextModel.items. rewrite map_length, !app_length. lia. }
  exists st'. split; [unfold selector; rewrite E; reflexivity|]. split; [exact A|].
  unfold relative_selector. rewrite (items_app _ w) at 1. rewrite skip_ws by exact B. destruct t as [|x t]; [destruct S|]. cbn in S |- *. destruct x; try discriminate S; try reflexivity. destruct d; try discriminate S; reflexivity.
Qed.

(** ** Lists *)
Lemma acc_join (a o x : bool) : (o = true -> a = true) -> a || (o || x) = a || x.
Proof. destruct a, o; auto. intros H. discriminate (H eq_refl). Qed.
Lemma list_last one fg m t s : no_comma t -> (forall st, pure m st -> exists st', one st (items t) = (st', Some s) /\ after_nesting st' = after_nesting st || existsb nests s) -> reads_list one fg m t [s].
Proof.
  intros N H orig acc P L. rewrite split_one by exact N. destruct (H orig P) as (st' & E & A). cbn [selectors]. rewrite E. eexists. split; [reflexivity|]. rewrite after_set, A. cbn [existsb]. rewrite orb_false_r. apply acc_join. exact L.
Qed.
Lemma list_next one fg m t s r l : no_comma t -> (forall st, pure m st -> exists st', one st (items t) = (st', Some s) /\ after_nesting st' = after_nesting st || existsb nests s) -> reads_list one fg m r l ->
  reads_list one fg m (t ++ [Comma] ++ r) (s :: l).
Proof.
  intros N H R orig acc P L. cbn [app]. rewrite split_more by exact N. destruct (H orig P) as (st' & E & A). cbn [selectors]. rewrite E.
  destruct (R orig (set_nesting (after_nesting st') acc) P) as (st2 & E2 & A2); [rewrite after_set; intros X; rewrite (L X); reflexivity|]. rewrite E2. exists st2. split; [reflexivity|]. rewrite A2, after_set, A, (acc_join _ _ _ L). cbn [existsb]. rewrite orb_assoc. reflexivity.
Qed.
Definition fails (one : state -> list item -> state * option sel) (t : list tok) : Prop := forall st, one st (items t) = (st, None).
Lemma list_last_bad one m t : no_comma t -> fails one t -> reads_list one true m t [].
Proof. intros N H orig acc P L. rewrite split_one by exact N. cbn [selectors]. rewrite H. eexists. split; [reflexivity|]. cbn [existsb]. rewrite after_set, orb_false_r. destruct (after_nesting orig); [rewrite (L eq_refl); reflexivity|apply orb_false_r]. Qed.
Lemma list_next_bad one m t r l : no_comma t -> fails one t -> reads_list one true m r l -> reads_list one true m (t ++ [Comma] ++ r) l.
Proof.
  intros N H R orig acc P L. cbn [app]. rewrite split_more by exact N. cbn [selectors]. rewrite H. destruct (R orig (set_nesting (after_nesting orig) acc) P) as (st2 & E2 & A2); [rewrite after_set; intros X; rewrite (L X); reflexivity|].
  exists st2. split; [exact E2|]. rewrite A2, after_set. f_equal. destruct (after_nesting orig); [rewrite (L eq_refl); reflexivity|apply orb_false_r].
Qed.
Lemma empty_fails w : blank w -> fails (selector cfg false) w.
Proof.
  intros B st. unfold selector. cbn [selector_loop]. unfold compound. replace (skip (items w)) with (@nil item) by (symmetry; apply skip_blank; exact B). reflexivity.
Qed.
Lemma hopeless_fails w x t : blank w -> hopeless x = true -> fails (selector cfg false) (w ++ x :: t).
Proof.
  intros B H st. unfold selector. cbn [selector_loop]. unfold compound. rewrite items_app, skip_ws by exact B. destruct x; try discriminate H; try reflexivity. destruct d; try discriminate H; reflexivity.
Qed.
Lemma hopeless_comma w x t : blank w -> hopeless x = true -> no_comma t -> no_comma (w ++ x :: t).
Proof. intros B H N. apply Forall_app. split; [apply blank_comma; exact B|]. constructor; [intros ->; discriminate H|exact N]. Qed.
Lemma selector_one m t s : P_selector m t s -> no_comma t /\ (forall st, pure m st -> exists st', selector cfg false st (items t) = (st', Some s) /\ after_nesting st' = after_nesting st || existsb nests s).
Proof. intros [H N]. split; [exact N|]. intros st P. destruct (H st false P) as (st' & E & A & _). exists st'. split; assumption. Qed.
Lemma relative_case m w y k t s : blank w -> lead_text y k -> P_selector m t s -> P_relative m (w ++ y ++ t) (lead k Scope s).
Proof.
  intros B Y H. destruct (selector_one m t s H) as [N R]. split; [|apply Forall_app; split; [apply blank_comma; exact B|apply Forall_app; split; [destruct Y; repeat (constructor; [discriminate|]); constructor|exact N]]].
  intros st P. destruct (R st P) as (st' & E & A). exists st'. unfold relative_selector. rewrite items_app, skip_ws by exact B. destruct Y; cbn [items SelTextModel.items map app skip]; fold (items t); rewrite E; split; try reflexivity; cbn [lead existsb nests orb]; exact A.
Qed.

(** ** All texts *)
Ltac css W := rewrite (word_css2 _ _ W eq_refl); reflexivity.
Lemma nth_read st t w s w' a b : after_pseudo st = false -> blank w -> AnbSpec.anb_text s a b -> AnbSpec.int32 a -> AnbSpec.int32 b -> b <> (-2147483648)%Z -> blank w' -> nth_class cfg st t (items (w ++ [Nth s] ++ w')) = Some (NthComp t a b).
Proof.
  intros A B T Ra Rb Nb B'. unfold nth_class, allows_tree. rewrite A. cbn [negb]. rewrite items_app, skip_ws by exact B. cbn [items SelTextModel.items map app skip]. rewrite (AnbProofs.read_text s a b T Ra Rb Nb).
  rewrite skip_blank by exact B'. reflexivity.
Qed.
Lemma nth_of_read m st t w s w' o x a b l : t = NthChild \/ t = NthLastChild -> pure m st -> blank w -> AnbSpec.anb_text s a b -> AnbSpec.int32 a -> AnbSpec.int32 b -> b <> (-2147483648)%Z -> blank w' -> word "of" o -> P_list (inner m) x l ->
  nth_class cfg st t (items (w ++ [Nth s] ++ w' ++ [Ident o] ++ x)) = Some (NthOf t a b l).
Proof.
  intros Ht P B T Ra Rb Nb B' O L. unfold nth_class, allows_tree. rewrite (proj1 P). cbn [negb]. rewrite items_app, skip_ws by exact B. cbn [app]. cbn [items SelTextModel.items map skip]. rewrite (AnbProofs.read_text s a b T Ra Rb Nb).
  fold (items (w' ++ Ident o :: x)). rewrite items_app, skip_ws by exact B'. cbn [items SelTextModel.items map skip]. fold (items x). rewrite (word_kw "of" o O eq_refl).
  assert (Al : allows_of t = true) by (destruct Ht as [->| ->]; reflexivity). rewrite Al. cbn [andb]. unfold selector_list.
  destruct (L true (disallow_pseudos st) (disallow_pseudos st) (pure_disallow m st P) (fun x => x)) as (st' & E & _). rewrite E. reflexivity.
Qed.
Theorem grammar_read :
  (forall m t c, simple_text html (deep cfg) nest m t c -> P_simple m t c) /\
  (forall m t cs, simples_text html (deep cfg) nest m t cs -> P_simples m t cs) /\
  (forall m t cs, compound_text html (deep cfg) nest m t cs -> P_compound m t cs) /\
  (forall t cs, tail_text html (deep cfg) nest t cs -> P_tail t cs) /\
  (forall m t s, complex_text html (deep cfg) nest m t s -> P_complex m t s) /\
  (forall m t s, selector_text html (deep cfg) nest m t s -> P_selector m t s) /\
  (forall m t l, list_text html (deep cfg) nest m t l -> P_list m t l) /\
  (forall m t l, forgiving_text html (deep cfg) nest m t l -> P_forgiving m t l) /\
  (forall m t l, relatives_text html (deep cfg) nest m t l -> P_relatives m t l) /\
  (forall m t s, relative_text html (deep cfg) nest m t s -> P_relative m t s).
Proof.
  apply (grammar_min html (deep cfg) nest P_simple P_simples P_compound P_tail P_complex P_selector P_list P_forgiving P_relatives P_relative).
  - (* id *) intros m s. apply simple_of; [repeat (constructor; [discriminate|]); constructor|reflexivity|exact I|]. intros st rest P. cbn [nests]. rewrite set_nesting_false. cbn [items SelTextModel.items map app simples]. rewrite (proj1 P). reflexivity.
  - (* class *) intros m s. apply simple_of; [repeat (constructor; [discriminate|]); constructor|reflexivity|exact I|]. intros st rest P. cbn [nests]. rewrite set_nesting_false. cbn [items SelTextModel.items map app simples]. rewrite (proj1 P). reflexivity.
  - (* attribute *) intros m a c H. apply simple_of; [repeat (constructor; [discriminate|]); constructor|reflexivity|exact I|]. intros st rest P.
    assert (N : nests c = false) by (destruct H as [? ? ? ? ? ? ? ? ? C|? ? ? ? ? ? ? ? ? ? ? ? ? ? ? ? ? ? ? ? C]; destruct C; reflexivity). rewrite N, set_nesting_false. cbn [items SelTextModel.items map app simples]. rewrite (proj1 P).
    rewrite (attr_read cfg (fun _ _ s => (s, None)) a c H). reflexivity.
  - (* nesting *) intros m E. apply simple_of; [repeat (constructor; [discriminate|]); constructor|reflexivity|auto|]. intros st rest P. cbn [items SelTextModel.items map app simples nests]. rewrite E. reflexivity.
  - (* tree *) intros m n k c H W. apply class_case; [exact (listed_css2 tree_names k c n eq_refl H W)|exact (negb_true_iff _ (in_all (fun x => negb (nests (snd x))) tree_names (k, c) eq_refl H)) || (apply negb_true_iff; exact (in_all (fun x => negb (nests (snd x))) tree_names (k, c) eq_refl H))|].
    intros st P. exact (tree_read st n k c P H W).
  - (* pseudo *) intros m n k c H W. apply class_case; [exact (listed_css2 class_names k c n eq_refl H W)|reflexivity|]. intros st P. exact (class_read st n k c P H W).
  - (* unknown *) intros m n N1 N2 N3 N4. apply class_case; [apply css2_none; apply (unnamed_none old_element_names old_words n N4 eq_refl)|reflexivity|]. intros st P. exact (unknown_read st n P N1 N2 N3).
  - (* is *) intros m n a l W _ R. apply fun_case; [css W|]. intros st P. rewrite (fn_is cfg n a _ st W). rewrite (nested_case false true (inner m) _ st a l R (pure_disallow m st P) eq_refl). reflexivity.
  - (* where *) intros m n a l W _ R. apply fun_case; [css W|]. intros st P. rewrite (fn_where cfg n a _ st W). rewrite (nested_case false true (inner m) _ st a l R (pure_disallow m st P) eq_refl). reflexivity.
  - (* webkit *) intros m n a l W _ R. apply fun_case; [css W|]. intros st P. rewrite (fn_webkit cfg n a _ st W). rewrite (nested_case false true (inner m) _ st a l R (pure_disallow m st P) eq_refl). reflexivity.
  - (* moz *) intros m n a l W _ R. apply fun_case; [css W|]. intros st P. rewrite (fn_moz cfg n a _ st W). rewrite (nested_case false true (inner m) _ st a l R (pure_disallow m st P) eq_refl). reflexivity.
  - (* not *) intros m n a l W _ R. apply fun_case; [css W|]. intros st P. rewrite (fn_not cfg n a _ st W). rewrite (nested_case false false (inner m) _ st a l (R false) (pure_disallow m st P) eq_refl). reflexivity.
  - (* has *) intros m n a l W _ R. apply fun_case; [css W|]. intros st P. rewrite (fn_has cfg n a _ st W). rewrite (nested_case true true (inner m) _ st a l R (pure_inner m st P) eq_refl). reflexivity.
  - (* host *) intros m n a s W _ R. apply fun_case; [css W|]. intros st P. rewrite (fn_host cfg n a _ st W (proj1 P)). rewrite (inner_case st a s R (pure_both m st P)). reflexivity.
  - (* nth *) intros m n k t w s w' a b H W B T Ra Rb Nb B'. apply fun_case'; [exact (listed_css2 nth_names k t n eq_refl H W)|reflexivity|]. intros st A. apply (fn_nth cfg n k t _ _ st _ H W). apply nth_read; assumption.
  - (* nth of *) intros m n k t w s w' o x a b l H W Ht B T Ra Rb Nb B' O _ L. apply fun_case; [exact (listed_css2 nth_names k t n eq_refl H W)|]. intros st P. cbn [nests]. rewrite set_nesting_false. apply (fn_nth cfg n k t _ _ st _ H W). apply (nth_of_read m); assumption.
  - (* lang *) intros m n a l W C. apply fun_case'; [css W|reflexivity|]. intros st A. apply (fn_lang cfg n a _ st l W A). apply (commas_read cfg value_text); [exact value_read|exact C].
  - (* ltr *) intros m n w d w' W B D B'. apply fun_case'; [css W|reflexivity|]. intros st A. exact (fn_dir cfg n w d w' st false W A B D B').
  - (* rtl *) intros m n w d w' W B D B'. apply fun_case'; [css W|reflexivity|]. intros st A. exact (fn_dir cfg n w d w' st true W A B D B').
  - (* state *) intros m n a s W C. apply fun_case'; [css W|reflexivity|]. intros st A. apply (fn_state cfg n a _ st s W A). apply (padded_read cfg custom_name); [exact custom_read|exact C].
  - (* types *) intros m n a l W C. apply fun_case'; [css W|reflexivity|]. intros st A. apply (fn_types cfg n a _ st l W A). apply (commas_read cfg custom_name); [exact custom_read|exact C].
  - (* unknown function *) intros m n a N N4. apply fun_case'; [apply css2_none; apply (unnamed_none old_element_names old_words n N4 eq_refl)|reflexivity|]. intros st A. exact (fn_unknown cfg n a _ st N A).
  - (* no simple selectors *) exact no_simples.
  - intros m t c r l _ A _ B. apply simples_case; assumption.
  - intros m t cs _ H. apply compound_simples. exact H.
  - intros m y ty t cs T _ H. apply compound_with_type; assumption.
  - intros m y ty t cs E T _ H. apply compound_with_nesting; assumption.
  - (* old *) intros n k e t cs H W T. destruct (states_quiet _ t cs T) as [_ NC]. pose proof (in_all (fun x => known (PElement (snd x)) && negb (is_scrollbar (PElement (snd x)))) old_element_names (k, e) eq_refl H) as K. cbn [snd] in K. apply andb_prop in K. destruct K as [K B]. apply negb_true_iff in B.
    split; [|repeat split; [repeat (constructor; [discriminate|]); exact NC|discriminate]].
    intros st w P Bw. destruct (pure_quiet st P) as (S & R & A & O). rewrite <- app_assoc, items_app, (old_step cfg st n (PElement e)); [|exact (css2_old n k e H W)|exact (element_read old_element_names st n k e old_looked O H W)].
    apply element_tail; auto.
  - (* element *) intros n k e t cs H W T. exact (tail_named n k e element_names t cs element_looked eq_refl H W T).
  - (* scrollbar *) intros n k e t cs H W T. destruct (states_quiet _ t cs T) as [Q NC]. pose proof (in_all (fun x => known (PElement (snd x)) && is_scrollbar (PElement (snd x))) scrollbar_elements (k, e) eq_refl H) as K. cbn [snd] in K. apply andb_prop in K. destruct K as [K B].
    split; [|repeat split; [repeat (constructor; [discriminate|]); exact NC|discriminate]].
    intros st w P Bw. destruct (pure_quiet st P) as (S & R & A & O). rewrite <- app_assoc, items_app, (element_step cfg st n (PElement e)); [|exact (element_read scrollbar_elements st n k e bar_looked O H W)].
    rewrite push_known by exact K. cbn [fst snd]. rewrite items_app, (states_bar cfg _ t cs); [|exact S|reflexivity|cbn [set_element after_scrollbar]; rewrite B; apply orb_true_r|exact T].
    rewrite simples_stop by (apply blank_stops; exact Bw). eexists. split; [cbn [prepend]; rewrite app_nil_r; reflexivity|]. cbn. rewrite Q, orb_false_r. reflexivity.
  - (* unknown element *) intros n t cs N1 N2 N3 T. destruct (states_quiet _ t cs T) as [_ NC]. split; [|repeat split; [repeat (constructor; [discriminate|]); exact NC|discriminate]].
    intros st w P Bw. destruct (pure_quiet st P) as (S & R & A & O). rewrite <- app_assoc, items_app, (element_step cfg st n (PElement (CustomElement n))); [|exact (unknown_element_read st n O N1 N2 N3)].
    apply unknown_tail; auto.
  - (* cue *) intros n a s t cs W _ H T. apply tail_fun; auto; [apply (states_quiet _ t cs T)|]. intros st P. destruct (proj1 H empty_state false pure_empty) as (st' & E & _). exact (fn_cue cfg n a _ st s st' W (pure_open st P) E).
  - (* cue-region *) intros n a s t cs W _ H T. apply tail_fun; auto; [apply (states_quiet _ t cs T)|]. intros st P. destruct (proj1 H empty_state false pure_empty) as (st' & E & _). exact (fn_cue_region cfg n a _ st s st' W (pure_open st P) E).
  - (* picker *) intros n w s w' t cs W B B' T. apply tail_fun; auto; [apply (states_quiet _ t cs T)|]. intros st P. exact (fn_picker cfg n w s w' st W (pure_open st P) B B').
  - (* transition *) intros n k v w a w' p t cs H W B V B' T. apply tail_fun; auto; [apply (states_quiet _ t cs T)|]. intros st P. apply (fn_vt cfg n k v _ _ st p H W (pure_open st P)). apply vt_read; assumption.
  - (* unknown function *) intros n a t cs N T. destruct (states_quiet _ t cs T) as [_ NC]. split; [|repeat split; [repeat (constructor; [discriminate|]); exact NC|discriminate]].
    intros st w P Bw. destruct (pure_quiet st P) as (S & R & A & O). rewrite <- app_assoc, items_app, (fun_element_step cfg st st n a (SElement (PElement (CustomElementFn n a)))); [|exact (fn_unknown_element cfg n a _ st N O)].
    apply unknown_tail; auto.
  - (* part *) intros n a l t cs W L T. destruct (states_quiet _ t cs T) as [Q NC]. split; [|repeat split; [repeat (constructor; [discriminate|]); exact NC|discriminate]].
    intros st w P Bw. destruct (pure_quiet st P) as (S & R & A & O). destruct (words_read cfg a l L) as [El Nl]. rewrite <- app_assoc, items_app, (fun_element_step cfg st st n a (SPart l)) by exact (fn_part cfg n a _ st l W O A El Nl).
    cbn [push_simple fst snd]. rewrite items_app, (states_part cfg st t cs _ P T), simples_stop by (apply blank_stops; exact Bw). eexists. split; [cbn [prepend]; rewrite app_nil_r; reflexivity|]. cbn. rewrite Q, orb_false_r. reflexivity.
  - (* part and element *) intros n a l t cs n' k e t' cs' W L T H W' T'. destruct (states_quiet _ t cs T) as [Q NC]. destruct (states_quiet _ t' cs' T') as [Q' NC'].
    split; [|repeat split; [repeat (constructor; [discriminate|]); apply Forall_app; split; [exact NC|]; repeat (constructor; [discriminate|]); exact NC'|discriminate]].
    intros st w P Bw. destruct (pure_quiet st P) as (S & R & A & O). destruct (words_read cfg a l L) as [El Nl]. rewrite <- app_assoc, items_app, (fun_element_step cfg st st n a (SPart l)) by exact (fn_part cfg n a _ st l W O A El Nl).
    cbn [push_simple fst snd]. rewrite <- app_assoc, items_app, (states_part cfg st t cs _ P T). rewrite <- app_assoc, items_app, (element_step cfg (set_part st) n' (PElement e)); [|apply (element_read element_names (set_part st) n' k e element_looked); [exact O|exact H|exact W']].
    pose proof (in_all (fun x => known (PElement (snd x)) && negb (is_scrollbar (PElement (snd x)))) element_names (k, e) eq_refl H) as K. cbn [snd] in K. apply andb_prop in K. destruct K as [K B]. apply negb_true_iff in B.
    destruct (element_tail (set_part st) (PElement e) t' cs' w K B eq_refl S R T' Bw) as (st' & E & N). rewrite E, !prepend_some_eq. exists st'. split; [reflexivity|]. rewrite N. rewrite !existsb_app'. cbn [existsb nests orb]. rewrite Q, Q'. reflexivity.
  - (* slotted *) intros n a s W _ H. split; [|repeat split; [repeat (constructor; [discriminate|]); constructor|discriminate]].
    intros st w P Bw. destruct (pure_quiet st P) as (S & R & A & O). rewrite items_app, (fun_element_step cfg st (set_nesting (existsb nests s) st) n a (SSlotted s)).
    + cbn [push_simple fst snd]. rewrite simples_stop by (apply blank_stops; exact Bw). eexists. split; [reflexivity|]. cbn. rewrite orb_false_r. reflexivity.
    + rewrite (fn_slotted cfg n a _ st W O A), (inner_case st a s H (pure_both _ st P)). reflexivity.
  - (* slotted and element *) intros n a s n' k e W _ H I' W'. split; [|repeat split; [repeat (constructor; [discriminate|]); constructor|discriminate]].
    intros st w P Bw. destruct (pure_quiet st P) as (S & R & A & O). change ([Colon; Colon; Fun n a; Colon; Colon; Ident n'] ++ w) with ([Colon; Colon; Fun n a] ++ [Colon; Colon; Ident n'] ++ w). rewrite items_app, (fun_element_step cfg st (set_nesting (existsb nests s) st) n a (SSlotted s)).
    + cbn [push_simple fst snd]. rewrite items_app, (element_step cfg _ n' (PElement e)) by exact (slot_element_read (set_nesting (existsb nests s) st) n' k e O I' W').
      pose proof (in_all (fun x => known (PElement (snd x))) slot_names (k, e) eq_refl I') as K. cbn [snd] in K. rewrite push_known by exact K. cbn [fst snd].
      rewrite simples_stop by (apply blank_stops; exact Bw). eexists. split; [reflexivity|]. cbn. rewrite orb_false_r. reflexivity.
    + rewrite (fn_slotted cfg n a _ st W O A), (inner_case st a s H (pure_both _ st P)). reflexivity.
  - (* complex *) intros m t cs _ H NE. split; [|split; [apply H|destruct H as (_ & _ & [[_ ->]|[H _]]); [contradiction|exact H]]]. intros st pre post fuel P B B' F. apply (loop_end m); try assumption. lia.
  - intros m t cs y ys _ H El _ T. split; [|split; [apply Forall_app; split; [apply H|apply T]|]].
    + intros st pre post fuel P B B' F. apply (loop_tail m); try assumption. lia.
    + destruct H as (_ & _ & [[-> _]|[H _]]); [|apply starts_app; exact H]. destruct T as (_ & _ & T & _). destruct y as [|[] y]; try destruct T. reflexivity.
  - intros m t cs y k r s _ H NE Co K _ R. apply loop_more; assumption.
  - intros m w t w' s B _ H B'. apply selector_case; assumption.
  - intros m t s _ H fg. destruct (selector_one m t s H) as [N R]. apply list_last; assumption.
  - intros m t s r l _ H _ L fg. destruct (selector_one m t s H) as [N R]. apply list_next; auto.
  - intros m t s _ H. destruct (selector_one m t s H) as [N R]. apply list_last; assumption.
  - intros m w B. apply list_last_bad; [apply blank_comma; exact B|apply empty_fails; exact B].
  - intros m w x t B H N. apply list_last_bad; [apply hopeless_comma; assumption|apply hopeless_fails; assumption].
  - intros m t s r l _ H _ L. destruct (selector_one m t s H) as [N R]. apply list_next; assumption.
  - intros m w r l B _ L. apply list_next_bad; [apply blank_comma; exact B|apply empty_fails; exact B|exact L].
  - intros m w x t r l B H N _ L. rewrite app_comm_cons, app_assoc. apply list_next_bad; [apply hopeless_comma; assumption|apply hopeless_fails; assumption|exact L].
  - intros m t s _ [R N]. apply list_last; assumption.
  - intros m t s r l _ [R N] _ L. apply list_next; assumption.
  - intros m t s _ [H N]. split; [|exact N]. intros st P. destruct (H st false P) as (st' & E & A & Rl). exists st'. rewrite Rl, E. split; [reflexivity|exact A].
  - intros m w y k t s B Y Co _ H. apply relative_case; assumption.
Qed.
End Read.
