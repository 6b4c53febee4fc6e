(** * Printing and reading declaration blocks *)
From Coq Require Import List Bool String Arith Lia.
From Verif Require Import MediaModel VendorPrefixModel PropertyTable SupportsSpec SupportsProofs SupportsParseProofs
  SupportsMeaningProofs DeclTextModel DeclTextSpec DeclTextProofs.
Import ListNotations.
Local Open Scope string_scope.
Local Open Scope list_scope.

(** ** Property ids *)
Lemma table_fact : table_ok property_table = true. Proof. vm_compute. reflexivity. Qed.
Lemma lower_ascii_lower c : lower_ascii (lower_ascii c) = lower_ascii c.
Proof. apply lower_ascii_idem. Qed.
Lemma istrip_some p s r : istrip_prefix p s = Some r -> istrip_prefix p (lower s) = Some (lower r).
Proof.
  revert s. induction p as [|a p IH]; intros s H; [injection H as ->; reflexivity|].
  destruct s as [|b s]; [discriminate|]. cbn [istrip_prefix lower] in *. rewrite lower_ascii_idem.
  destruct (Ascii.eqb a (lower_ascii b)); [apply IH; exact H | discriminate].
Qed.
Lemma split_prefix_of_lower n : split_prefix (lower n) = (fst (split_prefix n), lower (snd (split_prefix n))).
Proof.
  unfold split_prefix.
  destruct (istrip_prefix "-webkit-" n) as [r|] eqn:E1; [rewrite (istrip_some _ _ _ E1); reflexivity | rewrite (istrip_lower_none _ _ E1)].
  destruct (istrip_prefix "-moz-" n) as [r|] eqn:E2; [rewrite (istrip_some _ _ _ E2); reflexivity | rewrite (istrip_lower_none _ _ E2)].
  destruct (istrip_prefix "-o-" n) as [r|] eqn:E3; [rewrite (istrip_some _ _ _ E3); reflexivity | rewrite (istrip_lower_none _ _ E3)].
  destruct (istrip_prefix "-ms-" n) as [r|] eqn:E4; [rewrite (istrip_some _ _ _ E4); reflexivity | rewrite (istrip_lower_none _ _ E4)].
  reflexivity.
Qed.
Lemma find_lower r : find (fun e => ieq (lower r) (e_name e)) property_table = find (fun e => ieq r (e_name e)) property_table.
Proof.
  induction property_table as [|e t IH]; [reflexivity|]. cbn [find]. unfold ieq at 1 3. rewrite lower_idem.
  destruct (String.eqb (lower r) (lower (e_name e))); [reflexivity | exact IH].
Qed.
Lemma from_lower n : (forall m, pid_from property_table n <> PCustom m) -> pid_from property_table (lower n) = pid_from property_table n.
Proof.
  intros H. unfold pid_from in *. rewrite split_prefix_of_lower. destruct (split_prefix n) as [p r]. cbn [fst snd].
  unfold from_name_and_prefix in *. rewrite find_lower.
  destruct (find (fun e => ieq r (e_name e)) property_table) as [e|].
  - destruct (vs_contains _ _); [reflexivity | exfalso; exact (H _ eq_refl)].
  - unfold ieq in *. rewrite lower_idem. destruct (String.eqb (lower r) (lower "all")); [reflexivity | exfalso; exact (H _ eq_refl)].
Qed.
Lemma vs_iter_one q : vs_iter (vs_or_none (vs_one q)) = [q].
Proof. destruct q; reflexivity. Qed.
Lemma known_from n : known (pid_from property_table n).
Proof.
  destruct (pid_from_cases property_table table_fact n) as [[e [H [H1 [H2 [H3 [H4 H5]]]]]]|[[m [H [H1 H2]]]|[[H H1]|H]]].
  - rewrite H. cbn [known]. intros q Hq. rewrite vs_iter_one in Hq. destruct Hq as [<-|[]].
    assert (E : lower n = (pfx_text (fst (split_prefix n)) ++ e_name e)%string).
    { unfold canonical_name in H4. destruct (strip_prefix "--" n) as [r|] eqn:S; [|exact H4].
      rewrite <- H4 in H5. congruence. }
    rewrite <- E, from_lower; [exact H | intros m Hm; congruence].
  - rewrite H. cbn [known pid_name]. assert (E : lower n = m).
    { unfold canonical_name in H1. destruct (strip_prefix "--" n) as [r|] eqn:S; [|exact H1]. rewrite <- H1 in H2. congruence. }
    rewrite <- E at 1. rewrite from_lower; [exact H | intros k Hk; congruence].
  - rewrite H. vm_compute. reflexivity.
  - rewrite H. cbn [known pid_name]. exact H.
Qed.
Lemma single_from n x p : pid_from property_table n = PVp x p -> exists q, p = vs_one q.
Proof.
  intros H. destruct (pid_from_cases property_table table_fact n) as [[e [H' _]]|[[m [H' _]]|[[H' _]|H']]]; rewrite H in H'; try discriminate H'.
  injection H' as _ ->. eauto.
Qed.

(** ** Cutting *)
Lemma before_none stop l r : (forall t, In t l -> stop t = false) -> before stop (l ++ r) = l ++ before stop r.
Proof.
  induction l as [|x l IH]; intros H; [reflexivity|]. cbn [app before]. rewrite (H x (or_introl eq_refl)), IH; [reflexivity|].
  intros t Ht. apply H. right. exact Ht.
Qed.
Lemma from_none stop l r : (forall t, In t l -> stop t = false) -> from stop (l ++ r) = from stop r.
Proof.
  induction l as [|x l IH]; intros H; [reflexivity|]. cbn [app from]. rewrite (H x (or_introl eq_refl)), IH; [reflexivity|].
  intros t Ht. apply H. right. exact Ht.
Qed.
Lemma before_all stop l : (forall t, In t l -> stop t = false) -> before stop l = l.
Proof. intros H. pose proof (before_none stop l [] H) as E. cbn [before] in E. rewrite !app_nil_r in E. exact E. Qed.
Lemma from_all stop l : (forall t, In t l -> stop t = false) -> from stop l = [].
Proof. intros H. pose proof (from_none stop l [] H) as E. rewrite app_nil_r in E. exact E. Qed.
Lemma before_from stop l : l = before stop l ++ from stop l.
Proof.
  induction l as [|x r IH]; [reflexivity|]. cbn [before from]. destruct (stop x); [reflexivity|]. cbn [app]. f_equal. exact IH.
Qed.
Lemma before_stop stop l t : In t (before stop l) -> stop t = false.
Proof.
  induction l as [|x r IH]; [intros []|]. cbn [before]. destruct (stop x) eqn:E; [intros []|]. intros [<-|H]; auto.
Qed.
Lemma from_length stop l : List.length (from stop l) <= List.length l.
Proof. induction l as [|x r IH]; [auto|]. cbn [from]. destruct (stop x); cbn [List.length]; lia. Qed.
Lemma tl_length {A} (l : list A) : List.length (tl l) <= List.length l.
Proof. destruct l; cbn; lia. Qed.
Lemma skip_cut l : exists a, blank a /\ l = a ++ skip l.
Proof.
  induction l as [|t r IH]; [exists []; split; [intros ? [] | reflexivity]|]. cbn [skip]. destruct (is_blank t) eqn:E.
  - destruct IH as [a [H1 H2]]. exists (t :: a). split; [intros u [<-|H]; auto | cbn [app]; rewrite <- H2; reflexivity].
  - exists []. split; [intros ? [] | reflexivity].
Qed.

Section Values.
Variable V : Type.
Variable parse_typed : string -> list tk -> option V.
Variable print_typed : bool -> string -> V -> list tk.
Notation items := (items V parse_typed).
Notation parse_decl := (parse_decl V parse_typed).
Notation parse_property := (parse_property V parse_typed).

(** Fuel *)
Lemma items_fuel k : forall j l, List.length l < k -> List.length l < j -> items k l = items j l.
Proof.
  induction k as [|k IH]; intros [|j] l Hk Hj; try lia. destruct l as [|t r]; [reflexivity|]. cbn [List.length] in *.
  assert (S1 : forall stop, List.length (tl (from stop r)) < k /\ List.length (tl (from stop r)) < j).
  { intros stop. pose proof (from_length stop r). pose proof (tl_length (from stop r)). lia. }
  cbn [DeclTextModel.items]. unfold after_semi.
  destruct t; try (apply IH; lia); f_equal; apply IH; apply S1.
Qed.
Definition its (l : list tk) := items (S (List.length l)) l.
Lemma its_semi r : its (KSemi :: r) = its r.
Proof. reflexivity. Qed.
Lemma its_blank a r : blank a -> its (a ++ r) = its r.
Proof.
  induction a as [|t a IH]; intros H; [reflexivity|]. cbn [app]. rewrite <- IH; [|intros u Hu; apply H; right; exact Hu].
  pose proof (H t (or_introl eq_refl)) as Ht. destruct t; try discriminate Ht; reflexivity.
Qed.
Lemma its_decl n l : its (KIdent n :: l) =
  match skip (before is_semi l) with KColon :: v => parse_decl n v | _ => None end :: its (after_semi l).
Proof.
  change (its (KIdent n :: l)) with
    (match skip (before is_semi l) with KColon :: v => parse_decl n v | _ => None end :: items (S (List.length l)) (after_semi l)).
  f_equal. unfold its. apply items_fuel; [|lia].
  unfold after_semi. pose proof (from_length is_semi l). pose proof (tl_length (from is_semi l)). lia.
Qed.

(** ** Texts made of statements *)
Definition gap (a : list tk) : Prop := a = [] \/ exists s, a = [KWs s].
Definition statement (s : list tk) : Prop :=
  (exists n r, s = KIdent n :: KColon :: r) /\ (forall t, In t s -> is_semi t = false) /\ glue s = s.
Inductive spells : list tk -> list (list tk) -> Prop :=
| spells_nil : forall a, gap a -> spells a []
| spells_last : forall a s, gap a -> statement s -> spells (a ++ s) [s]
| spells_semi : forall a r ss, gap a -> spells r ss -> spells (a ++ KSemi :: r) ss
| spells_cons : forall a s r ss, gap a -> statement s -> spells r ss -> spells (a ++ s ++ KSemi :: r) (s :: ss).
Definition item_of (s : list tk) : option (decl V * bool) :=
  match s with KIdent n :: KColon :: v => parse_decl n v | _ => None end.

Lemma gap_blank a : gap a -> blank a.
Proof. intros [-> |[s ->]]; [intros ? [] | intros t [<-|[]]; reflexivity]. Qed.
Lemma gap_firm a : gap a -> Forall firm a.
Proof. intros [-> |[s ->]]; repeat constructor. Qed.
Lemma gap_loose a t r : gap a -> loose (t :: r) -> is_blank t = false -> loose (a ++ t :: r).
Proof.
  intros [-> |[s ->]] H E; [exact H|]. constructor; [destruct t; try reflexivity; discriminate E | exact H].
Qed.
Lemma spells_items l ss : spells l ss -> its l = map item_of ss.
Proof.
  induction 1 as [a Ha|a s Ha Hs|a r ss Ha Hr IH|a s r ss Ha Hs Hr IH].
  - pose proof (its_blank a [] (gap_blank a Ha)) as E. rewrite app_nil_r in E. exact E.
  - rewrite (its_blank a s (gap_blank a Ha)). destruct Hs as [[n [v ->]] [Hs _]]. rewrite its_decl.
    assert (N : forall t, In t (KColon :: v) -> is_semi t = false) by (intros t Ht; apply Hs; right; exact Ht).
    rewrite (before_all _ _ N). unfold after_semi. rewrite (from_all _ _ N). reflexivity.
  - rewrite (its_blank a _ (gap_blank a Ha)), its_semi. exact IH.
  - rewrite (its_blank a _ (gap_blank a Ha)). destruct Hs as [[n [v ->]] [Hs _]]. cbn [app]. rewrite its_decl.
    assert (N : forall t, In t (KColon :: v) -> is_semi t = false) by (intros t Ht; apply Hs; right; exact Ht).
    change (KColon :: v ++ KSemi :: r) with ((KColon :: v) ++ KSemi :: r).
    rewrite (before_none _ _ _ N). unfold after_semi. rewrite (from_none _ _ _ N). cbn [before from is_semi tl]. rewrite app_nil_r.
    cbn [skip is_blank map item_of]. rewrite IH. reflexivity.
Qed.
Lemma loose_semi l r : loose l -> loose r -> loose (l ++ KSemi :: r).
Proof.
  intros H1 H2. destruct l as [|x l _] using rev_ind.
  - cbn [app]. apply loose_front; [exact H2 | intros u q _; destruct u; reflexivity].
  - rewrite <- app_assoc. cbn [app]. apply loose_join; [exact H1 | apply loose_front; [exact H2 | intros u q _; destruct u; reflexivity] | destruct x; reflexivity].
Qed.
Lemma gap_then a l : gap a -> loose l -> (forall t r, l = t :: r -> is_blank t = false) -> loose (a ++ l).
Proof.
  intros Ha Hl H. destruct l as [|t r].
  - rewrite app_nil_r. destruct Ha as [-> |[s ->]]; constructor.
  - apply gap_loose; [exact Ha | exact Hl | exact (H t r eq_refl)].
Qed.
Lemma statement_loose s : statement s -> Forall firm s /\ loose s.
Proof. intros [_ [_ H]]. apply glue_fixed. exact H. Qed.
Lemma spells_glue l ss : spells l ss -> glue l = l.
Proof.
  intros H. apply glue_fixed. induction H as [a Ha|a s Ha Hs|a r ss Ha Hr [IH1 IH2]|a s r ss Ha Hs Hr [IH1 IH2]].
  - split; [apply gap_firm; exact Ha | destruct Ha as [-> |[s ->]]; constructor].
  - destruct (statement_loose s Hs) as [F O]. split; [apply Forall_app; split; [apply gap_firm; exact Ha | exact F]|].
    apply gap_then; [exact Ha | exact O|]. destruct Hs as [[n [v ->]] _]. intros t r E. injection E as <- _. reflexivity.
  - split; [apply Forall_app; split; [apply gap_firm; exact Ha | constructor; [reflexivity | exact IH1]]|].
    apply gap_then; [exact Ha | exact (loose_semi [] r loose_nil IH2) | intros t q E; injection E as <- _; reflexivity].
  - destruct (statement_loose s Hs) as [F O]. split.
    + apply Forall_app. split; [apply gap_firm; exact Ha|]. apply Forall_app. split; [exact F | constructor; [reflexivity | exact IH1]].
    + apply gap_then; [exact Ha | apply loose_semi; assumption|]. destruct Hs as [[n [v ->]] _]. intros t q E. injection E as <- _. reflexivity.
Qed.

(** The pieces of such a text *)
Lemma pieces_plain l r : (forall t, In t l -> is_semi t = false) ->
  pieces (l ++ KSemi :: r) = l :: pieces r.
Proof.
  induction l as [|x l IH]; intros H; [reflexivity|]. cbn [app pieces].
  pose proof (H x (or_introl eq_refl)) as Hx. rewrite IH; [|intros t Ht; apply H; right; exact Ht].
  destruct x; try reflexivity; discriminate Hx.
Qed.
Lemma pieces_end l : (forall t, In t l -> is_semi t = false) -> pieces l = [l].
Proof.
  induction l as [|x l IH]; intros H; [reflexivity|]. cbn [pieces].
  pose proof (H x (or_introl eq_refl)) as Hx. rewrite IH; [|intros t Ht; apply H; right; exact Ht].
  destruct x; try reflexivity; discriminate Hx.
Qed.
Lemma gap_semi a t : gap a -> In t a -> is_semi t = false.
Proof. intros Ha Ht. pose proof (gap_blank a Ha t Ht) as H. destruct t; try discriminate H; reflexivity. Qed.
Lemma gap_nothing a : gap a -> something a = false.
Proof. intros [-> |[s ->]]; reflexivity. Qed.
Lemma statement_something a s : statement s -> something (a ++ s) = true.
Proof.
  intros [[n [v ->]] _]. unfold something. rewrite existsb_app. cbn [existsb is_blank negb]. destruct (existsb _ a); reflexivity.
Qed.
Lemma spells_pieces l ss : spells l ss ->
  Forall2 (fun p s => exists a, gap a /\ p = a ++ s) (filter something (pieces l)) ss.
Proof.
  induction 1 as [a Ha|a s Ha Hs|a r ss Ha Hr IH|a s r ss Ha Hs Hr IH].
  - rewrite (pieces_end a (fun t => gap_semi a t Ha)). cbn [filter]. rewrite (gap_nothing a Ha). constructor.
  - rewrite (pieces_end (a ++ s)).
    + cbn [filter]. rewrite (statement_something a s Hs). constructor; [|constructor]. exists a. auto.
    + intros t Ht. apply in_app_or in Ht. destruct Ht as [Ht|Ht]; [exact (gap_semi a t Ha Ht) | destruct Hs as [_ [Hs _]]; auto].
  - rewrite (pieces_plain a r (fun t => gap_semi a t Ha)). cbn [filter]. rewrite (gap_nothing a Ha). exact IH.
  - rewrite app_assoc. rewrite (pieces_plain (a ++ s) r).
    + cbn [filter]. rewrite (statement_something a s Hs). constructor; [|exact IH]. exists a. auto.
    + intros t Ht. apply in_app_or in Ht. destruct Ht as [Ht|Ht]; [exact (gap_semi a t Ha Ht) | destruct Hs as [_ [Hs _]]; auto].
Qed.

(** ** One statement *)
Notation print_value := (print_value V print_typed).
Notation print_decl := (print_decl V print_typed).

(** The value of a declaration as it is written, with the whitespace around it *)
Definition front (m : bool) (d : decl V) : list tk :=
  match d with DCustom _ v => if starts_ws v then [] else ws m | _ => ws m end.
Definition stmt (m : bool) (n : string) (d : decl V) (important : bool) : list tk :=
  KIdent n :: KColon :: front m d ++ print_value m d ++ print_important m important.

(** What is needed of the tokens of a value *)
Definition holds_value (m : bool) (i : pid) (d : decl V) (important : bool) (d' : decl V) : Prop :=
  let l := print_value m d in
  glue (front m d ++ l ++ (if important then ws m else [])) = front m d ++ l ++ (if important then ws m else [])
  /\ (forall t, In t l -> is_semi t = false /\ stops i t = false)
  /\ parse_property i (front m d ++ l ++ (if important then ws m else [])) = Some d'.

Lemma front_gap m d : gap (front m d).
Proof.
  assert (W : gap (ws m)) by (destruct m; [left; reflexivity | right; eexists; reflexivity]).
  unfold front. destruct d as [i v|i v|n v]; try exact W. destruct (starts_ws v); [left; reflexivity | exact W].
Qed.
Lemma blank_stops i t : is_blank t = true -> stops i t = false.
Proof. destruct t; try discriminate; reflexivity. Qed.
Lemma ws_gap m : gap (ws m).
Proof. destruct m; [left; reflexivity | right; eexists; reflexivity]. Qed.
Lemma stmt_statement m n i d important d' : holds_value m i d important d' -> statement (stmt m n d important).
Proof.
  intros [G [T _]]. split; [exists n; eexists; reflexivity|]. split.
  - unfold stmt. intros t [<-|[<-|H]]; [reflexivity | reflexivity|]. apply in_app_or in H. destruct H as [H|H]; [exact (gap_semi _ t (front_gap m d) H)|].
    apply in_app_or in H. destruct H as [H|H]; [apply T; exact H|]. unfold print_important in H. destruct important; [|destruct H].
    apply in_app_or in H. destruct H as [H|[<-|[<-|[]]]]; [exact (gap_semi _ t (ws_gap m) H) | reflexivity | reflexivity].
  - apply glue_fixed. apply glue_fixed in G. destruct G as [F O]. unfold stmt, print_important in *.
    destruct important.
    + assert (F' : Forall firm (front m d ++ print_value m d ++ ws m ++ [KBang; KIdent "important"])
                   /\ loose (front m d ++ print_value m d ++ ws m ++ [KBang; KIdent "important"])).
      { rewrite !app_assoc in *. split; [apply Forall_app; split; [exact F | repeat constructor]|].
        set (l := (front m d ++ print_value m d) ++ ws m) in *. clearbody l. destruct l as [|x l _] using rev_ind; [repeat constructor|].
        rewrite <- app_assoc. cbn [app]. apply loose_join; [exact O | repeat constructor | destruct x; reflexivity]. }
      destruct F' as [F1 O1]. split; [repeat (constructor; [reflexivity|]); exact F1|].
      constructor; [reflexivity|]. apply loose_front; [exact O1 | intros u r _; destruct u; reflexivity].
    + rewrite app_nil_r in *. split; [repeat (constructor; [reflexivity|]); exact F|].
      constructor; [reflexivity|]. apply loose_front; [exact O | intros u r _; destruct u; reflexivity].
Qed.
Lemma stmt_item m n i d important d' : pid_from property_table n = i -> holds_value m i d important d' ->
  item_of (stmt m n d important) = Some (d', important).
Proof.
  intros Hi [_ [T P]]. unfold stmt, item_of, DeclTextModel.parse_decl. rewrite Hi.
  set (body := front m d ++ print_value m d ++ (if important then ws m else [])) in *.
  assert (N : forall t, In t body -> stops i t = false).
  { subst body. intros t H. apply in_app_or in H. destruct H as [H|H]; [apply blank_stops, (gap_blank _ (front_gap m d)), H|].
    apply in_app_or in H. destruct H as [H|H]; [apply T; exact H|]. destruct important; [|destruct H].
    apply blank_stops, (gap_blank _ (ws_gap m)), H. }
  assert (E : front m d ++ print_value m d ++ print_important m important
              = body ++ (if important then [KBang; KIdent "important"] else [])).
  { subst body. unfold print_important. destruct important; rewrite <- ?app_assoc, ?app_nil_r; reflexivity. }
  rewrite E, (before_none _ _ _ N), (from_none _ _ _ N).
  destruct important; cbn [before from stops]; rewrite app_nil_r, P; reflexivity.
Qed.

(** Its piece *)
Lemma stmt_states m n d important a : gap a ->
  exists w, blank w /\ states (a ++ stmt m n d important) n (w ++ print_value m d) important.
Proof.
  intros Ha. exists (front m d). split; [apply gap_blank, front_gap|]. unfold stmt, print_important. destruct important.
  - rewrite app_assoc. replace (ws m ++ [KBang; KIdent "important"]) with (ws m ++ KBang :: [] ++ [KIdent "important"]) by reflexivity.
    apply states_important; [apply gap_blank; exact Ha | apply gap_blank, ws_gap | intros ? []].
  - rewrite app_nil_r. apply states_normal. apply gap_blank. exact Ha.
Qed.

(** ** Values *)
Lemma typed_value m i v important : readable V parse_typed print_typed m (pid_name i) v -> (forall n, i <> PCustom n) ->
  holds_value m i (DTyped i v) important (DTyped i v).
Proof.
  intros [[G [T [[t [r [E1 B1]]] [t' [r' [E2 B2]]]]]] P] N. unfold holds_value. cbn [DeclTextModel.print_value front].
  set (l := print_typed m (pid_name i) v) in *. split; [|split].
  - apply glue_fixed in G. destruct G as [F O]. apply glue_fixed. split.
    + apply Forall_app. split; [destruct m; repeat constructor|]. apply Forall_app. split; [exact F|]. destruct important, m; repeat constructor.
    + apply gap_then; [apply ws_gap| |].
      * destruct important; [|rewrite app_nil_r; exact O]. destruct m; cbn [ws]; [rewrite app_nil_r; exact O|].
        rewrite E2 in *. rewrite <- app_assoc. cbn [app]. apply loose_join; [exact O | constructor | destruct t'; try reflexivity; discriminate B2].
      * intros u q Eu. rewrite E1 in Eu. injection Eu as <- _. exact B1.
  - intros u Hu. destruct (T u Hu) as [T1 [T2 [T3 T4]]]. split; [exact T1|]. destruct u; try reflexivity; [exfalso; apply T2; reflexivity|].
    destruct b; try reflexivity. discriminate T3.
  - assert (Q : parse_typed (pid_name i) (ws m ++ l ++ (if important then ws m else [])) = Some v).
    { apply P; [apply gap_blank, ws_gap|]. destruct important; [apply gap_blank, ws_gap | intros ? []]. }
    destruct i as [x p|x| |x]; cbn [pid_name DeclTextModel.parse_property] in *; [rewrite Q; reflexivity | rewrite Q; reflexivity| |exfalso; exact (N x eq_refl)].
    rewrite Q. reflexivity.
Qed.

Lemma printed_list m v : parsed_list v -> kept m v ->
  exists us, print_tl m v = us /\ all_of (parse_tk 0) us = Some (map (img m) v) /\ Forall firm us /\ loose us /\ clean v.
Proof.
  intros [l [G P]] K. apply glue_fixed in G. destruct G as [F O]. unfold tl_parse in P.
  destruct (deep 0); [discriminate P|]. destruct (all_of (parse_tk 0) l) as [vs|] eqn:E; [|discriminate P]. injection P as <-.
  destruct (trim_cut vs) as [a [c Hc]]. pose proof E as E'. rewrite Hc in E'.
  destruct (inner_list m 0 l) with (a := a) (v := trim vs) (c := c) as [us [U1 [U2 [U3 [U4 _]]]]]; try assumption.
  - apply Forall_forall. intros t _. apply printed_again.
  - destruct m; exact K.
  - exists us. repeat (split; [assumption|]). apply trim_is_clean. exact (loose_spaced 0 l vs O E).
Qed.
Lemma parse_blank_list d a : gap a -> exists b, all_of (parse_tk d) a = Some b /\ (b = [] \/ exists x, b = [x] /\ v_is_ws x = true).
Proof.
  intros [-> |[s ->]]; [exists []; auto|]. exists [VTok (KWs s)]. split; [reflexivity|]. right. exists (VTok (KWs s)). auto.
Qed.
Lemma last_ws m d v us s : all_of (parse_tk d) us = Some (map (img m) v) -> starts_ws (rev v) = false ->
  forall x r, us = r ++ [x] -> glues x (KWs s) = None.
Proof.
  intros H Hs x r ->. rewrite all_of_app in H. cbn [all_of] in H. destruct (all_of (parse_tk d) r) as [q|]; [|discriminate].
  destruct (parse_tk d x) as [y|] eqn:E; [|discriminate]. injection H as H. apply (f_equal (@rev tv)) in H.
  rewrite rev_app_distr, <- map_rev in H. cbn [rev app] in H. destruct (rev v) as [|z w]; [discriminate H|]. injection H as H _.
  cbn [starts_ws] in Hs. destruct x; try reflexivity. cbn [parse_tk is_bad] in E. injection E as E.
  rewrite <- (img_ws m), <- H, <- E in Hs. discriminate Hs.
Qed.

(** The tokens of a list between optional whitespace *)
Lemma padded m v a c : parsed_list v -> kept m v -> gap a -> gap c ->
  (v = [] -> a = [] /\ c = []) -> (starts_ws v = true -> a = [] /\ c = []) ->
  glue (a ++ print_tl m v ++ c) = a ++ print_tl m v ++ c
  /\ tl_parse 0 (a ++ print_tl m v ++ c) = Some (map (img m) v).
Proof.
  intros P K Ha Hc Hn Hs. destruct (printed_list m v P K) as [us [U1 [U2 [U3 [U4 C]]]]]. rewrite U1.
  unfold tl_parse. change (deep 0) with false. cbn iota.
  assert (Em : v = [] \/ starts_ws v = true \/ (v <> [] /\ starts_ws v = false)).
  { destruct v; [auto|]. right. destruct (starts_ws (t :: v)); [auto | right; split; [discriminate | reflexivity]]. }
  assert (Simple : a = [] /\ c = [] -> glue (a ++ us ++ c) = a ++ us ++ c
            /\ option_map trim (all_of (parse_tk 0) (a ++ us ++ c)) = Some (map (img m) v)).
  { intros [-> ->]. cbn [app]. rewrite app_nil_r. split; [apply glue_fixed; auto|]. rewrite U2. cbn [option_map].
    rewrite trim_clean; [reflexivity | apply clean_img; exact C]. }
  destruct Em as [E|[E|[E1 E2]]]; [apply Simple, Hn, E | apply Simple, Hs, E|]. clear Simple.
  pose proof (clean_first v C E1 E2) as E3. split.
  - apply glue_fixed. split.
    + apply Forall_app. split; [apply gap_firm; exact Ha|]. apply Forall_app. split; [exact U3 | apply gap_firm; exact Hc].
    + assert (L : loose (us ++ c)).
      { destruct Hc as [-> |[s ->]]; [rewrite app_nil_r; exact U4|]. destruct us as [|x us _] using rev_ind.
        - cbn [all_of] in U2. injection U2 as U2. destruct v; [congruence | discriminate U2].
        - rewrite <- app_assoc. cbn [app]. apply loose_join; [exact U4 | constructor | exact (last_ws m 0 v _ s U2 E3 x us eq_refl)]. }
      destruct Ha as [-> |[s ->]]; [exact L|]. cbn [app]. apply loose_front; [exact L|]. intros u r Eu.
      destruct us as [|u' us]; [cbn [all_of] in U2; injection U2 as U2; destruct v; [congruence | discriminate U2]|].
      cbn [app] in Eu. injection Eu as -> _. exact (head_ws m 0 v _ U2 E2 u us eq_refl s).
  - destruct (parse_blank_list 0 a Ha) as [b [B1 B2]]. destruct (parse_blank_list 0 c Hc) as [b' [B1' B2']].
    rewrite !all_of_app, B1, U2, B1'. cbn [option_map]. f_equal. apply trim_pad; [|rewrite starts_img; exact E2|rewrite <- map_rev, starts_img; exact E3|exact B2|exact B2'].
    destruct v; [congruence | discriminate].
Qed.

Lemma print_shape m v u : In u (print_tv m v) -> (is_semi u = true -> v = VTok KSemi) /\ (u = KBang -> v = VTok KBang)
  /\ (forall l, u = KBlock Curly l -> (exists l', v = VBlock Curly l') \/ exists l', v = VTok (KBlock Curly l')).
Proof.
  destruct v as [t|f n [l|]|f l|b l]; cbn [print_tv].
  - destruct t, m; intros H; try (destruct H; fail); destruct H as [<-|[]]; (split; [intros H; try discriminate H; reflexivity|]);
      (split; [intros H; try discriminate H; reflexivity|]); intros q H; try discriminate H; injection H as -> ->; eauto.
  - intros [<-|[]]. repeat split; intros; discriminate.
  - intros [<-|[]]. repeat split; intros; discriminate.
  - intros [<-|[]]. repeat split; intros; discriminate.
  - intros [<-|[]]. split; [discriminate|]. split; [discriminate|]. intros q H. injection H as -> _. eauto.
Qed.
Lemma parsed_tok v t : parsed_list v -> In (VTok t) v -> forall b l, t <> KBlock b l.
Proof.
  intros [l [_ P]] H b l' ->. unfold tl_parse in P. destruct (deep 0); [discriminate P|].
  destruct (all_of (parse_tk 0) l) as [vs|] eqn:E; [|discriminate P]. injection P as <-.
  destruct (trim_cut vs) as [a [c Hc]].
  assert (Hin : In (VTok (KBlock b l')) vs) by (rewrite Hc; apply in_or_app; right; apply in_or_app; left; exact H).
  clear -E Hin. revert vs E Hin. induction l as [|x r IH]; intros vs E Hin; cbn [all_of] in E.
  - injection E as <-. destruct Hin.
  - destruct (parse_tk 0 x) as [y|] eqn:Ey; [|discriminate]. destruct (all_of (parse_tk 0) r) as [q|] eqn:Er; [|discriminate].
    injection E as <-. destruct Hin as [-> |Hin]; [|exact (IH q eq_refl Hin)].
    destruct x; cbn [parse_tk is_bad] in Ey; try discriminate Ey.
    + destruct (all_of (parse_tk 1) body) as [z|]; [|discriminate Ey].
      assert (R : forall f d, ref_of f d z <> Some (VTok (KBlock b l'))).
      { intros f d R. unfold ref_of in R. destruct (v_skip z) as [|[[]| | |] w]; try discriminate R.
        destruct (String.eqb f "var" && negb (dashed s)); [discriminate R|].
        destruct (v_skip w) as [|[[]| | |] w']; try discriminate R. destruct d; discriminate R. }
      destruct (String.eqb name "var"); [exact (R _ _ Ey)|]. destruct (String.eqb name "env"); [exact (R _ _ Ey)|].
      destruct (deep 1); discriminate Ey.
    + destruct (all_of (parse_tk 1) body) as [z|]; [|discriminate Ey]. destruct (deep 1); discriminate Ey.
Qed.
Lemma list_tokens m i v : parsed_list v -> no_delimiter v -> (curly_free v \/ exists n, i = PCustom n /\ dashed n = true) ->
  forall t, In t (print_tl m v) -> is_semi t = false /\ stops i t = false.
Proof.
  intros P [D1 D2] C t Ht. unfold print_tl in Ht. apply in_flat_map in Ht. destruct Ht as [x [Hx Ht]].
  destruct (print_shape m x t Ht) as [S1 [S2 S3]]. split.
  - destruct (is_semi t) eqn:E; [|reflexivity]. exfalso. apply D1. rewrite <- (S1 eq_refl). exact Hx.
  - destruct t; try reflexivity.
    + exfalso. apply D2. rewrite <- (S2 eq_refl). exact Hx.
    + destruct b; try reflexivity. destruct C as [C|[n [-> Hn]]]; [|cbn [stops]; rewrite Hn; reflexivity].
      destruct (S3 _ eq_refl) as [[l' E]|[l' E]]; subst x; [exfalso; exact (C l' Hx)|].
      exfalso. exact (parsed_tok v _ P Hx Curly l' eq_refl).
Qed.
Lemma starts_space v : parsed_list v -> starts_ws v = true -> is_space v.
Proof.
  intros P H. assert (K : clean v).
  { destruct P as [l [G P]]. apply glue_fixed in G. destruct G as [F O]. unfold tl_parse in P. destruct (deep 0); [discriminate P|].
    destruct (all_of (parse_tk 0) l) as [vs|] eqn:E; [|discriminate P]. injection P as <-. apply trim_is_clean. exact (loose_spaced 0 l vs O E). }
  destruct K as [K|[K _]]; [|congruence]. destruct v as [|x [|y r]]; [discriminate H| |cbn in K; lia].
  destruct x as [[]| | |]; try discriminate H. exists s. reflexivity.
Qed.

Lemma important_gap m (b : bool) : gap (if b then ws m else []).
Proof. destruct b; [apply ws_gap | left; reflexivity]. Qed.
Lemma unparsed_value m i v important : printable V parse_typed print_typed m (DUnparsed i v) important ->
  holds_value m i (DUnparsed i v) important (as_read V m (DUnparsed i v)).
Proof.
  intros [_ [L [P [K [D [C [R [A N]]]]]]]]. unfold holds_value. cbn [DeclTextModel.print_value front].
  assert (PAD : glue (ws m ++ print_tl m v ++ (if important then ws m else [])) = ws m ++ print_tl m v ++ (if important then ws m else [])
                /\ tl_parse 0 (ws m ++ print_tl m v ++ (if important then ws m else [])) = Some (map (img m) v)).
  { apply padded; [exact P | exact K | apply ws_gap | apply important_gap | |].
    - intros E. destruct m; [destruct important; auto|]. cbn [lasting] in L. destruct L as [L _]. congruence.
    - intros E. destruct m; [destruct important; auto|]. cbn [lasting] in L. destruct L as [_ L]. exfalso. apply L. apply starts_space; assumption. }
  destruct PAD as [G T]. split; [exact G|]. split; [apply list_tokens; auto|].
  assert (Q : parse_typed (pid_name i) (ws m ++ print_tl m v ++ (if important then ws m else [])) = None)
    by (apply R; apply gap_blank; [apply ws_gap | apply important_gap]).
  assert (E : as_read V m (DUnparsed i v) = DUnparsed i (map (img m) v))
    by (cbn [as_read]; destruct m; [reflexivity | rewrite map_img_false; reflexivity]).
  rewrite E. destruct i as [x p|x| |x]; cbn [pid_name DeclTextModel.parse_property] in *.
  - rewrite Q, T. reflexivity.
  - rewrite Q, T. reflexivity.
  - congruence.
  - exfalso. exact (N x eq_refl).
Qed.
Lemma custom_value m n v important : printable V parse_typed print_typed m (DCustom n v) important ->
  holds_value m (PCustom n) (DCustom n v) important (as_read V m (DCustom n v)).
Proof.
  intros [_ [L [P [K [D C]]]]]. unfold holds_value. cbn [DeclTextModel.print_value].
  assert (Fg : gap (front m (DCustom n v))) by apply front_gap.
  assert (PAD : glue (front m (DCustom n v) ++ print_tl m v ++ (if important then ws m else [])) = front m (DCustom n v) ++ print_tl m v ++ (if important then ws m else [])
                /\ tl_parse 0 (front m (DCustom n v) ++ print_tl m v ++ (if important then ws m else [])) = Some (map (img m) v)).
  { apply padded; [exact P | exact K | exact Fg | apply important_gap | |].
    - intros E. cbn [front]. destruct m; [destruct important, (starts_ws v); auto|]. cbn [lasting] in L. destruct L as [L _]. congruence.
    - intros E. cbn [front]. rewrite E. destruct m; [destruct important; auto|]. cbn [lasting] in L. destruct L as [_ L].
      rewrite (L (starts_space v P E)). auto. }
  destruct PAD as [G T]. split; [exact G|]. split.
  - apply list_tokens; auto. destruct (dashed n) eqn:E; [right; exists n; auto | left; apply C; reflexivity].
  - cbn [DeclTextModel.parse_property]. rewrite T. cbn [option_map as_read]. destruct m; [reflexivity | rewrite map_img_false; reflexivity].
Qed.
End Values.
