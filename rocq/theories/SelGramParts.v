(** * The parts of selectors are read as what they stand for: attributes, lists of words, type selectors, combinators *)
From Coq Require Import List Bool ZArith Ascii String Lia.
Import ListNotations.
From Verif Require AnimModel AnbSpec AnbProofs.
From Verif Require Import SelTextModel SelTextSpec SelTextProofs SelTextBack SelTextFns SelGramSpec SelGramWords.
Local Open Scope string_scope.
Local Open Scope list_scope.

(** ** Letter case *)
Lemma lower_char_same c : ~ (65 <= nat_of_ascii c <= 90) -> AnimModel.lower_char c = c.
Proof. intros H. unfold AnimModel.lower_char. destruct (_ && _) eqn:E; [|reflexivity]. apply andb_prop in E. destruct E as [E1 E2]. apply Nat.leb_le in E1, E2. contradict H. auto. Qed.
Lemma lower_char_other c : 65 <= nat_of_ascii c <= 90 -> AnimModel.lower_char c <> c.
Proof.
  intros H. unfold AnimModel.lower_char. replace (_ && _) with true.
  - intros E. apply (f_equal nat_of_ascii) in E. rewrite nat_ascii_embedding in E by lia. lia.
  - symmetry. apply andb_true_intro. split; apply Nat.leb_le; lia.
Qed.
Lemma no_capital_lower s : ~ has_capital s -> lower s = s.
Proof.
  induction s as [|c s IH]; intros H; [reflexivity|]. cbn [lower AnimModel.lower]. change (String (AnimModel.lower_char c) (lower s) = String c s). rewrite lower_char_same, IH; [reflexivity| |].
  - intros (a & x & b & E & R). apply H. exists (String c a), x, b. rewrite E. auto.
  - intros R. apply H. exists ""%string, c, s. auto.
Qed.
Lemma capital_lower s : has_capital s -> lower s <> s.
Proof.
  intros (a & c & b & -> & R). induction a as [|x a IH]; cbn [append].
  - intros E. injection E as E _. exact (lower_char_other c R E).
  - intros E. injection E as _ E. exact (IH E).
Qed.
Lemma capital_upper s : has_capital s -> has_upper s = true.
Proof. intros H. unfold has_upper. apply negb_true_iff. apply String.eqb_neq. apply capital_lower. exact H. Qed.
Lemma no_capital_upper s : ~ has_capital s -> has_upper s = false.
Proof. intros H. unfold has_upper. rewrite no_capital_lower by exact H. rewrite String.eqb_refl. reflexivity. Qed.

(** ** Blanks *)
Section Its.
Variable g : tok -> bool -> state -> state * option simple.
Notation its := (map (fun t => (t, g t))).
Lemma skip_its w l : blank w -> skip (its w ++ l) = skip l.
Proof. induction 1 as [|t w -> H IH]; [reflexivity|exact IH]. Qed.
Lemma skip_blank w : blank w -> skip (its w) = [].
Proof. intros H. rewrite <- (app_nil_r (its w)). apply skip_its. exact H. Qed.
End Its.

(** ** Attributes *)
Section Attribute.
Variable cfg : config.
Variable g : tok -> bool -> state -> state * option simple.
Notation its := (map (fun t => (t, g t))).
Definition prefix_of (ns : option attr_ns) (p : prefix) : Prop :=
  match ns with None => p = Implicit \/ p = NoNamespace | Some AttrAny => p = AnyNamespace | Some (AttrNs n) => p = Namespace n end.
Definition no_bar (l : list item) : Prop := match l with (Delim Bar, _) :: _ => False | _ => True end.
Lemma attr_name_read t ns name l : attr_name t ns name -> no_bar l -> exists p, qualified_name true (its t ++ l) = QSome p (Some name) l /\ prefix_of ns p.
Proof.
  destruct 1; intros N; cbn; try (eexists; split; [reflexivity|cbn; auto]).
  destruct l as [|[[] f] l]; try (eexists; split; [reflexivity|cbn; auto]). destruct d; try (eexists; split; [reflexivity|cbn; auto]). destruct N.
Qed.
Lemma attr_name_skip t ns name l : attr_name t ns name -> skip (its t ++ l) = its t ++ l.
Proof. destruct 1; reflexivity. Qed.
Lemma flag_read t f : flag_text t f -> attribute_flags (its t) = Some f.
Proof.
  unfold attribute_flags. destruct 1 as [w H|w n w' H W H'|w n w' H W H']; [rewrite skip_blank by exact H; reflexivity| |]; rewrite map_app, skip_its by exact H; cbn [map app skip]; rewrite skip_blank by exact H'.
  - rewrite (word_kw "i" n W eq_refl). reflexivity.
  - rewrite (word_other "s" "i" n W eq_refl), (word_kw "s" n W eq_refl). reflexivity.
Qed.
Lemma html_read ns name f h : by_html (html_insensitive cfg) ns name f h -> case_of cfg f name (match ns with Some _ => true | None => false end) = h.
Proof.
  destruct 1 as [small W C ->|N|f N]; cbn.
  - rewrite (word_lower small name W (no_capital_lower small C)). reflexivity.
  - destruct ns; [reflexivity|contradiction].
  - destruct f; try reflexivity. contradiction.
Qed.
Lemma attr_read a c : attr_text (html_insensitive cfg) a c -> attribute cfg (its a) = Some c.
Proof.
  destruct 1 as [w t w' ns name c W T W' C|w t w1 o w2 v s tf ns name f h c W T W1 W2 V F H C]; unfold attribute.
  - rewrite map_app, skip_its by exact W. rewrite map_app, (attr_name_skip t ns name _ T).
    destruct (attr_name_read t ns name (its w') T) as (p & E & P); [destruct W' as [|t' w' -> W']; exact I|]. rewrite E, skip_blank by exact W'.
    destruct C as [N V|o s f h N C V|C]; [| |].
    + rewrite N in P. cbn in P. destruct P as [->| ->]; reflexivity.
    + discriminate V.
    + destruct ns as [[|n]|]; cbn in P; try (subst p; reflexivity). destruct C as [C|[_ C]]; contradiction.
  - rewrite map_app, skip_its by exact W. rewrite map_app, (attr_name_skip t ns name _ T).
    destruct (attr_name_read t ns name (its (w1 ++ [Op o] ++ w2 ++ [v] ++ tf)) T) as (p & E & P); [destruct W1 as [|t' w1 -> W1]; exact I|]. rewrite E. clear E.
    rewrite map_app, skip_its by exact W1. cbn [map app skip]. rewrite map_app, skip_its by exact W2.
    assert (X : forall K, match skip (its ([v] ++ tf)) with (Ident x, _) :: r2 | (Str x, _) :: r2 => K x r2 | _ => None end = K s (its tf) :> option comp) by (intros K; destruct V; reflexivity).
    rewrite X. clear X. rewrite (flag_read tf f F).
    assert (Hn : match match p with Namespace n => Some (AttrNs n) | AnyNamespace => Some AttrAny | _ => None end with Some _ => true | None => false end = match ns with Some _ => true | None => false end).
    { destruct ns as [[|n]|]; cbn in P; [subst p; reflexivity|subst p; reflexivity|destruct P as [->| ->]; reflexivity]. }
    assert (Hn' : match p with Namespace n => Some (AttrNs n) | AnyNamespace => Some AttrAny | _ => None end = ns).
    { destruct ns as [[|n]|]; cbn in P; [subst p; reflexivity|subst p; reflexivity|destruct P as [->| ->]; reflexivity]. }
    rewrite Hn'. cbn zeta. rewrite (html_read ns name f h H).
    destruct C as [N V'|o' s' f' h' N C V'|C].
    + discriminate V'.
    + injection V' as <- <- <- <-. rewrite N. rewrite (no_capital_upper name C). reflexivity.
    + destruct ns as [x|]; [reflexivity|]. destruct C as [C|[C _]]; [contradiction|]. rewrite (capital_upper name C). reflexivity.
Qed.
End Attribute.

(** ** Lists of words *)
Section Words.
Variable cfg : config.
Lemma blank_comma w : blank w -> no_comma w.
Proof. intros H. eapply Forall_impl; [|exact H]. intros t ->. discriminate. Qed.
Lemma padded_comma {A} (one : tok -> A -> Prop) t x : (forall t x, one t x -> t <> Comma /\ t <> Ws) -> padded one t x -> no_comma t.
Proof. intros H [w u w' y W O W']. apply Forall_app. split; [apply blank_comma; exact W|]. constructor; [apply (H u y O)|apply blank_comma; exact W']. Qed.
Lemma padded_read {A} (one : tok -> A -> Prop) (f : tok -> option A) t x : (forall t x, one t x -> f t = Some x /\ t <> Comma /\ t <> Ws) -> padded one t x -> one_token f (items cfg t) = Some x.
Proof.
  intros H [w u w' y W O W']. destruct (H u y O) as (E & _ & N). unfold one_token. rewrite items_app, skip_ws by exact W.
  assert (S : skip (items cfg ([u] ++ w')) = (u, fn cfg u) :: items cfg w') by (destruct u; try reflexivity; contradiction). rewrite S. unfold items at 1. rewrite skip_blank by exact W'. exact E.
Qed.
Lemma commas_read {A} (one : tok -> A -> Prop) (f : tok -> option A) t l : (forall t x, one t x -> f t = Some x /\ t <> Comma /\ t <> Ws) -> commas (padded one) t l ->
  each (one_token f) (split_commas (items cfg t)) = Some l.
Proof.
  intros H. assert (N : forall t x, padded one t x -> no_comma t) by (intros ? ?; apply padded_comma; intros; eapply H; eassumption).
  induction 1 as [t x O|t x r l O C IH].
  - rewrite split_one by exact (N _ _ O). cbn [each]. rewrite (padded_read one f t x H O). reflexivity.
  - cbn [app]. rewrite split_more by exact (N _ _ O). cbn [each]. rewrite (padded_read one f t x H O), IH. reflexivity.
Qed.
Lemma value_read t x : value_text t x -> ident_or_string t = Some x /\ t <> Comma /\ t <> Ws.
Proof. destruct 1; repeat split; discriminate. Qed.
Lemma custom_read t x : custom_name t x -> custom_ident t = Some x /\ t <> Comma /\ t <> Ws.
Proof. destruct 1 as [s N]. split; [|split; discriminate]. unfold custom_ident. rewrite (reserved_none s N). reflexivity. Qed.
Lemma part_blank w l : blank w -> part_names (items cfg w ++ l) = part_names l.
Proof. induction 1 as [|t w -> H IH]; [reflexivity|exact IH]. Qed.
Lemma words_read t l : words t l -> part_names (items cfg t) = Some l /\ l <> [].
Proof.
  induction 1 as [w s w' W W'|w s r l W H [IH N]]; (split; [|discriminate]); rewrite items_app, part_blank by exact W; cbn [items map app part_names]; fold (items cfg).
  - rewrite <- (app_nil_r (map _ w')). fold (items cfg w'). rewrite part_blank by exact W'. reflexivity.
  - fold (items cfg r). rewrite IH. reflexivity.
Qed.
Lemma vt_read w a w' p : blank w -> vt_text a p -> blank w' -> vt_part_selector (items cfg (w ++ a ++ w')) = Some p.
Proof.
  intros W V W'. unfold vt_part_selector. rewrite items_app, skip_ws by exact W.
  assert (C : forall cs, exists r, vt_class_list (items cfg (flat_map (fun s => [Delim Dot; Ident s]) cs ++ w')) = Some (cs, r) /\ skip r = []).
  { induction cs as [|s cs (r & IH & E)]; cbn [flat_map app].
    - destruct W' as [|t w' -> W']; [exists []; auto|]. exists (items cfg w'). split; [reflexivity|apply skip_blank; exact W'].
    - exists r. split; [|exact E]. cbn [items map vt_class_list]. fold (items cfg (flat_map (fun s => [Delim Dot; Ident s]) cs ++ w')). rewrite IH. reflexivity. }
  destruct V as [cs|s cs N|cs N]; destruct (C cs) as (r & E & K).
  - cbn [app items map skip]. fold (items cfg (flat_map (fun s => [Delim Dot; Ident s]) cs ++ w')). rewrite E, K. destruct cs; reflexivity.
  - cbn [app items map skip]. fold (items cfg (flat_map (fun s => [Delim Dot; Ident s]) cs ++ w')). rewrite (reserved_none s N), E, K. destruct cs; reflexivity.
  - destruct cs as [|s cs]; [contradiction|]. cbn [flat_map app] in *. cbn [items map skip]. cbn [items map] in E. rewrite E, K. reflexivity.
Qed.
End Words.

(** ** Type selectors and combinators *)
Section Joins.
Variable cfg : config.
(** What may follow a compound *)
Definition joins (t : tok) : bool := begins_simple t || stop t || match t with Delim Slash => true | _ => false end.
Definition joined (l : list item) : Prop := match l with [] => True | (t, _) :: _ => joins t = true end.
Lemma joined_type st l : joined l -> type_selector st l = Some ([], l).
Proof. destruct l as [|[t f] l]; [reflexivity|]. unfold type_selector. cbn. intros H; destruct t; try discriminate H; try reflexivity; destruct d; try discriminate H; reflexivity. Qed.
Lemma type_read st y ty X : type_text y ty -> after_pseudo st = false -> joined X -> type_selector st (items cfg y ++ X) = Some (ty, X).
Proof.
  intros T H C. unfold type_selector. destruct T; cbn; rewrite H; try reflexivity; destruct X as [|[x fx] X]; rewrite ?H; try reflexivity; destruct x; try discriminate C; try reflexivity; destruct d; try discriminate C; reflexivity.
Qed.
Lemma type_starts y ty : type_text y ty -> starts y /\ no_comma y /\ existsb nests ty = false /\ ty <> [].
Proof. destruct 1; repeat split; try (repeat constructor; discriminate); discriminate. Qed.

Lemma blank_combinator b w l : blanks w -> read_combinator cfg b (items cfg w ++ l) = read_combinator cfg true l.
Proof.
  intros [H N]. revert b. induction H as [|t w -> H IH]; intros b; [contradiction|]. cbn [items map app read_combinator]. fold (items cfg w). destruct w as [|t w]; [reflexivity|]. apply IH. discriminate.
Qed.
Lemma blank_combinator' b w l : blank w -> read_combinator cfg b (items cfg w ++ l) = read_combinator cfg b l \/ read_combinator cfg b (items cfg w ++ l) = read_combinator cfg true l.
Proof. intros H. destruct w as [|t w]; [left; reflexivity|]. right. apply blank_combinator. split; [exact H|discriminate]. Qed.
Lemma starts_combinator r l : starts r -> read_combinator cfg true (items cfg r ++ l) = CSome Descendant (items cfg r ++ l).
Proof. destruct r as [|t r]; [intros []|]. cbn [starts items map app]. destruct t; try discriminate; try reflexivity. destruct d; try discriminate; reflexivity. Qed.
Lemma starts_skip r l : starts r -> skip (items cfg r ++ l) = items cfg r ++ l.
Proof. destruct r as [|t r]; [intros []|]. destruct t; try discriminate; reflexivity. Qed.
(** The combinator is read, and blanks remain before the next compound *)
Lemma comb_read y k r l : comb_text (deep cfg) y k -> starts r -> exists w, blank w /\ read_combinator cfg false (items cfg (y ++ r) ++ l) = CSome k (items cfg (w ++ r) ++ l).
Proof.
  intros C S. assert (G : forall b X, match items cfg r ++ l with (Delim Gt, _) :: r1 => b r1 | _ => X end = X :> comb_result).
  { intros b X. destruct r as [|t r]; [destruct S|]. destruct t; try discriminate S; try reflexivity. destruct d; try discriminate S; reflexivity. }
  destruct C as [w W|w w' W W'|w w' W W'|w w' W W'|w w' D W W'|w n w' D W Wn W'].
  - exists []. split; [constructor|]. rewrite items_app, <- app_assoc, blank_combinator by exact W. apply starts_combinator. exact S.
  - exists w'. split; [exact W'|]. rewrite <- !app_assoc. rewrite items_app, <- app_assoc.
    assert (H : forall b, read_combinator cfg b (items cfg ([Delim Gt] ++ w' ++ r) ++ l) = CSome Child (items cfg (w' ++ r) ++ l)).
    { intros b. cbn [app items map read_combinator]. fold (items cfg (w' ++ r)). rewrite items_app, <- app_assoc. rewrite skip_ws by exact W'. rewrite starts_skip by exact S.
      destruct (deep cfg); [apply G|reflexivity]. }
    destruct (blank_combinator' false w (items cfg ([Delim Gt] ++ w' ++ r) ++ l) W) as [E|E]; rewrite E; apply H.
  - exists w'. split; [exact W'|]. rewrite <- !app_assoc. rewrite items_app, <- app_assoc. destruct (blank_combinator' false w (items cfg ([Delim Plus] ++ w' ++ r) ++ l) W) as [E|E]; rewrite E; reflexivity.
  - exists w'. split; [exact W'|]. rewrite <- !app_assoc. rewrite items_app, <- app_assoc. destruct (blank_combinator' false w (items cfg ([Delim Tilde] ++ w' ++ r) ++ l) W) as [E|E]; rewrite E; reflexivity.
  - exists w'. split; [exact W'|]. rewrite <- !app_assoc. rewrite items_app, <- app_assoc.
    assert (H : forall b, read_combinator cfg b (items cfg ([Delim Gt; Delim Gt; Delim Gt] ++ w' ++ r) ++ l) = CSome DeepDescendant (items cfg (w' ++ r) ++ l)).
    { intros b. cbn [app items map read_combinator skip]. rewrite D. reflexivity. }
    destruct (blank_combinator' false w (items cfg ([Delim Gt; Delim Gt; Delim Gt] ++ w' ++ r) ++ l) W) as [E|E]; rewrite E; apply H.
  - exists w'. split; [exact W'|]. rewrite <- !app_assoc. rewrite items_app, <- app_assoc.
    assert (H : forall b, read_combinator cfg b (items cfg ([Delim Slash; Ident n; Delim Slash] ++ w' ++ r) ++ l) = CSome Deep (items cfg (w' ++ r) ++ l)).
    { intros b. cbn [app items map read_combinator skip]. rewrite D, (word_kw "deep" n Wn eq_refl). reflexivity. }
    destruct (blank_combinator' false w (items cfg ([Delim Slash; Ident n; Delim Slash] ++ w' ++ r) ++ l) W) as [E|E]; rewrite E; apply H.
Qed.
Lemma comb_joins y k r l : comb_text (deep cfg) y k -> joined (items cfg (y ++ r) ++ l) /\ no_comma y.
Proof.
  assert (J : forall w t X, blank w -> joins t = true -> joined (items cfg ((w ++ t :: X) ++ r) ++ l)).
  { intros w t X W H. destruct W as [|t' w -> W]; [exact H|reflexivity]. }
  destruct 1 as [w [W N]|w w' W W'|w w' W W'|w w' W W'|w w' D W W'|w n w' D W Wn W'];
    try (split; [apply J; [exact W|reflexivity]|]; apply Forall_app; split; [apply blank_comma; exact W|]; repeat (constructor; [discriminate|]); apply blank_comma; exact W').
  split; [|apply blank_comma; exact W]. destruct W as [|t' w -> W]; [contradiction|reflexivity].
Qed.
End Joins.
