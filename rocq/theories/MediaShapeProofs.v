(** Proofs about the structure of printed media conditions: every printed condition is a list of
    parenthesised blocks joined by one operator, or the negation of one block, and the parser reads
    it back with the same meaning. *)
From Coq Require Import List String Ascii Bool ZArith QArith Lia.
From Verif Require Import MediaModel MediaSpec MediaPrintProofs.
Import ListNotations.
Open Scope string_scope.
Open Scope list_scope.

Definition sem := env -> tri.

(** [b] is the content of a block that reads as a condition with meaning [s]. *)
Definition blk_reads (b : list tok) (s : sem) : Prop :=
  forall n, (toks_depth b < n)%nat ->
       exists c, paren_block (parse_condition n true) b = Some c /\ forall e, eval_cond e c = s e.

Definition cond_reads (ao : bool) (l : list tok) (s : sem) : Prop :=
  forall n, (toks_depth l < n)%nat ->
       exists c, parse_condition n ao l = Some (c, []) /\ forall e, eval_cond e c = s e.

Lemma tok_depth_block : forall b, tok_depth (TBlock b) = S (toks_depth b).
Proof. reflexivity. Qed.

Lemma toks_depth_app : forall a b, toks_depth (a ++ b) = Nat.max (toks_depth a) (toks_depth b).
Proof. induction a; intros; cbn [app toks_depth]; [reflexivity|]. rewrite IHa. lia. Qed.

Fixpoint join (op : operator) (bs : list (list tok)) : list tok :=
  match bs with
  | [] => []
  | [b] => [TBlock b]
  | b :: r => TBlock b :: TIdent (operator_name op) :: join op r
  end.

Definition tfold (op : operator) (l : list tri) : tri :=
  match op with And => tall l | Or => tany l end.

Definition JoinShape (op : operator) (l : list tok) (s : sem) : Prop :=
  exists bs : list (list tok * sem),
    bs <> [] /\ l = join op (map fst bs) /\ Forall (fun p => blk_reads (fst p) (snd p)) bs
    /\ forall e, s e = tfold op (map (fun p => snd p e) bs).

Definition NegShape (l : list tok) (s : sem) : Prop :=
  exists b r, l = [TIdent "not"; TBlock b] /\ blk_reads b r /\ forall e, s e = tnot (r e).

Definition Shape (ao : bool) (l : list tok) (s : sem) : Prop :=
  (exists op, (ao = true \/ op = And) /\ JoinShape op l s) \/ NegShape l s.

(** ** Kleene logic *)
Lemma tand_true_r : forall a, tand a (Some true) = a.
Proof. intros [[]|]; reflexivity. Qed.
Lemma tor_false_r : forall a, tor a (Some false) = a.
Proof. intros [[]|]; reflexivity. Qed.
Lemma tnot_tnot : forall a, tnot (tnot a) = a.
Proof. intros [[]|]; reflexivity. Qed.
Lemma tand_assoc : forall a b c, tand a (tand b c) = tand (tand a b) c.
Proof. intros [[]|] [[]|] [[]|]; reflexivity. Qed.
Lemma tor_assoc : forall a b c, tor a (tor b c) = tor (tor a b) c.
Proof. intros [[]|] [[]|] [[]|]; reflexivity. Qed.

Definition tfold2 (op : operator) : tri -> tri -> tri := match op with And => tand | Or => tor end.
Definition tunit (op : operator) : tri := match op with And => Some true | Or => Some false end.
Lemma tfold2_assoc : forall op a b c, tfold2 op a (tfold2 op b c) = tfold2 op (tfold2 op a b) c.
Proof. intros []; [apply tand_assoc|apply tor_assoc]. Qed.
Lemma tfold2_unit_l : forall op a, tfold2 op (tunit op) a = a.
Proof. intros [] [[]|]; reflexivity. Qed.
Lemma tfold_cons : forall op a l, tfold op (a :: l) = tfold2 op a (tfold op l).
Proof. intros []; reflexivity. Qed.
Lemma tfold_nil : forall op, tfold op [] = tunit op.
Proof. intros []; reflexivity. Qed.
Lemma tfold_single : forall op a, tfold op [a] = a.
Proof. intros [] [[]|]; reflexivity. Qed.
Lemma tfold_app : forall op a b, tfold op (a ++ b) = tfold2 op (tfold op a) (tfold op b).
Proof.
  intros op a b. induction a as [|x a IH]; cbn [app].
  - rewrite tfold_nil, tfold2_unit_l. reflexivity.
  - rewrite !tfold_cons, IH, tfold2_assoc. reflexivity.
Qed.
Lemma eval_op : forall e op cs, eval_cond e (COp op cs) = tfold op (map (eval_cond e) cs).
Proof. intros e [] cs; reflexivity. Qed.

(** ** Reading a joined list *)
Lemma ieq_operator : forall op, ieq (operator_name op) (operator_name op) = true.
Proof. intros []; reflexivity. Qed.
Lemma parse_operator_name : forall op, parse_operator (operator_name op) = Some op.
Proof. intros []; reflexivity. Qed.

Definition tail_toks (op : operator) (bs : list (list tok)) : list tok :=
  flat_map (fun b => [TIdent (operator_name op); TBlock b]) bs.

Lemma join_tail : forall op b bs, join op (b :: bs) = TBlock b :: tail_toks op bs.
Proof.
  intros op b bs. revert b. induction bs as [|c bs IH]; intros b; [reflexivity|].
  change (join op (b :: c :: bs)) with (TBlock b :: TIdent (operator_name op) :: join op (c :: bs)).
  rewrite IH. reflexivity.
Qed.

Lemma parse_tail_reads : forall n op (bs : list (list tok * sem)) acc,
    Forall (fun p => blk_reads (fst p) (snd p)) bs ->
    Forall (fun p : list tok * sem => (toks_depth (fst p) < n)%nat) bs ->
    exists cs, parse_tail (paren_block (parse_condition n true)) op acc (tail_toks op (map fst bs))
          = Some (COp op (acc ++ cs), [])
          /\ forall e, map (eval_cond e) cs = map (fun p => snd p e) bs.
Proof.
  intros n op bs. induction bs as [|[b s] bs IH]; intros acc HR HD.
  - exists []. cbn. rewrite app_nil_r. split; reflexivity.
  - inversion_clear HR as [|? ? R1 R2]. inversion_clear HD as [|? ? D1 D2].
    destruct (R1 n D1) as [c [Hc Hs]].
    destruct (IH (acc ++ [c]) R2 D2) as [cs [H1 H2]].
    exists (c :: cs). split.
    + cbn [map fst tail_toks flat_map app parse_tail]. rewrite ieq_operator.
      cbn [fst] in Hc. rewrite Hc.
      change (flat_map (fun b => [TIdent (operator_name op); TBlock b]) (map fst bs))
        with (tail_toks op (map fst bs)).
      rewrite H1. rewrite <- app_assoc. reflexivity.
    + intros e. cbn [map snd]. rewrite Hs, H2. reflexivity.
Qed.

Lemma tail_depth : forall op (bs : list (list tok)) b n,
    (toks_depth (tail_toks op bs) < S n)%nat -> In b bs -> (toks_depth b < n)%nat.
Proof.
  induction bs as [|c bs IH]; intros b n H Hin; [destruct Hin|].
  cbn [tail_toks flat_map app toks_depth] in H. rewrite tok_depth_block in H.
  destruct Hin as [->|Hin]; [lia|].
  apply IH; [|exact Hin]. unfold tail_toks. lia.
Qed.

Lemma join_reads : forall ao op l s,
    (ao = true \/ op = And) -> JoinShape op l s -> cond_reads ao l s.
Proof.
  intros ao op l s Hao [bs [Hne [-> [HR HS]]]] n Hn.
  destruct bs as [|[b1 s1] bs]; [congruence|]. clear Hne.
  destruct n as [|n]; [lia|].
  cbn [map fst] in *. rewrite join_tail in *. cbn [toks_depth] in Hn. rewrite tok_depth_block in Hn.
  inversion_clear HR as [|? ? R1 RT]. cbn [fst snd] in R1.
  destruct (R1 n) as [c1 [E1 S1]]; [lia|].
  cbn [parse_condition]. rewrite E1.
  destruct bs as [|[b2 s2] bs]; cbn [map fst tail_toks flat_map app].
  - exists c1. split; [reflexivity|]. intros e. rewrite HS. cbn [map snd]. rewrite tfold_single. apply S1.
  - inversion_clear RT as [|? ? R2 RT']. cbn [fst snd] in R2.
    assert (D : (toks_depth (tail_toks op (map fst ((b2, s2) :: bs))) < S n)%nat) by lia.
    destruct (R2 n) as [c2 [E2 S2]].
    { eapply tail_depth; [exact D|]. left; reflexivity. }
    rewrite parse_operator_name.
    assert (G : negb ao && operator_eqb op Or = false)
      by (destruct Hao as [->| ->]; [reflexivity|destruct ao; reflexivity]).
    rewrite G, E2.
    change (flat_map (fun b => [TIdent (operator_name op); TBlock b]) (map fst bs))
      with (tail_toks op (map fst bs)).
    destruct (parse_tail_reads n op bs [c1; c2] RT') as [cs [H1 H2]].
    { rewrite Forall_forall. intros p Hp. eapply tail_depth; [exact D|].
      right. apply in_map. exact Hp. }
    rewrite H1. eexists; split; [reflexivity|]. intros e.
    rewrite eval_op, HS. cbn [map snd app]. rewrite S1, S2, H2. reflexivity.
Qed.

Lemma neg_reads : forall ao l s, NegShape l s -> cond_reads ao l s.
Proof.
  intros ao l s [b [r [-> [HR HS]]]] n Hn.
  cbn [toks_depth] in Hn. rewrite tok_depth_block in Hn. cbn [tok_depth] in Hn.
  destruct n as [|n]; [lia|]. destruct (HR n) as [c [E S]]; [lia|].
  exists (CNot c). split.
  - cbn [parse_condition]. change (ieq "not" "not") with true. cbn iota. rewrite E. reflexivity.
  - intros e. cbn [eval_cond]. rewrite S, HS. reflexivity.
Qed.

Lemma shape_reads : forall ao l s, Shape ao l s -> cond_reads ao l s.
Proof.
  intros ao l s [[op [Hao HJ]]|HN]; [eapply join_reads; eauto|apply neg_reads; assumption].
Qed.

Lemma shape_head : forall ao l s, Shape ao l s ->
    (exists b r, l = TBlock b :: r) \/ (exists b, l = [TIdent "not"; TBlock b]).
Proof.
  intros ao l s [[op [_ [bs [Hne [-> _]]]]]|[b [r [-> _]]]].
  - left. destruct bs as [|p bs]; [congruence|]. cbn [map]. rewrite join_tail. eauto.
  - right. eauto.
Qed.

Lemma shape_nonempty : forall ao l s, Shape ao l s -> l <> [].
Proof. intros ao l s H. destruct (shape_head _ _ _ H) as [[b [r ->]]|[b ->]]; discriminate. Qed.

Lemma cond_blk : forall l s, l <> [] -> cond_reads true l s -> blk_reads l s.
Proof.
  intros l s Hne H n Hn. destruct (H n Hn) as [c [E S]].
  exists c. split; [|exact S]. unfold paren_block. rewrite E.
  destruct l; [congruence|reflexivity].
Qed.

Lemma shape_blk : forall ao l s, Shape ao l s -> blk_reads l s.
Proof.
  intros ao l s H. apply cond_blk; [eapply shape_nonempty; eauto|].
  apply shape_reads. destruct H as [[op [_ HJ]]|HN]; [left; eauto|right; assumption].
Qed.

Lemma single_join : forall op b s, blk_reads b s -> JoinShape op [TBlock b] s.
Proof.
  intros op b s H. exists [(b, s)]. split; [discriminate|]. split; [reflexivity|].
  split; [repeat constructor; exact H|]. intros e. cbn [map snd]. rewrite tfold_single. reflexivity.
Qed.

Lemma single_shape : forall ao b s, blk_reads b s -> Shape ao [TBlock b] s.
Proof. intros ao b s H. left. exists And. split; [tauto|]. apply single_join; exact H. Qed.

Lemma join_app : forall op a b, a <> [] -> b <> [] ->
    join op (a ++ b) = join op a ++ TIdent (operator_name op) :: join op b.
Proof.
  intros op a b Ha Hb. destruct a as [|x a]; [congruence|]. destruct b as [|y b]; [congruence|].
  cbn [app]. rewrite !join_tail. cbn [app]. f_equal. unfold tail_toks.
  rewrite flat_map_app. cbn [flat_map app]. reflexivity.
Qed.

Lemma join_shape_app : forall op l1 l2 s1 s2 s,
    JoinShape op l1 s1 -> JoinShape op l2 s2 ->
    (forall e, s e = tfold2 op (s1 e) (s2 e)) ->
    JoinShape op (l1 ++ TIdent (operator_name op) :: l2) s.
Proof.
  intros op l1 l2 s1 s2 s [b1 [N1 [-> [R1 S1]]]] [b2 [N2 [-> [R2 S2]]]] HS.
  exists (b1 ++ b2). split; [destruct b1; [congruence|discriminate]|].
  split.
  - rewrite map_app, join_app; [reflexivity| |]; intro H; apply map_eq_nil in H; congruence.
  - split; [apply Forall_app; split; assumption|].
    intros e. rewrite HS, S1, S2, map_app, tfold_app. reflexivity.
Qed.

Lemma blk_reads_ext : forall b s s', (forall e, s e = s' e) -> blk_reads b s -> blk_reads b s'.
Proof.
  intros b s s' H HR n Hn. destruct (HR n Hn) as [c [E S]]. exists c. split; [exact E|].
  intros e. rewrite S. apply H.
Qed.
Lemma join_ext : forall op l s s', (forall e, s e = s' e) -> JoinShape op l s -> JoinShape op l s'.
Proof.
  intros op l s s' H [bs [A [B [C D]]]]. exists bs. repeat split; try assumption.
  intros e. rewrite <- H. apply D.
Qed.
Lemma shape_ext : forall ao l s s', (forall e, s e = s' e) -> Shape ao l s -> Shape ao l s'.
Proof.
  intros ao l s s' H [[op [A B]]|[b [r [A [B C]]]]].
  - left. exists op. split; [exact A|]. eapply join_ext; eauto.
  - right. exists b, r. repeat split; try assumption. intros e. rewrite <- H. apply C.
Qed.

(** ** Feature blocks *)
Definition not_cond_head (b : list tok) : Prop :=
  match b with
  | TBlock _ :: _ => False
  | TIdent _ :: TBlock _ :: _ => False
  | _ => True
  end.

Lemma not_cond_head_none : forall n b, not_cond_head b -> parse_condition n true b = None.
Proof.
  intros [|n] b H; [reflexivity|].
  destruct b as [|[] b]; try reflexivity; [|destruct H].
  cbn [parse_condition]. destruct (ieq s "not"); [|reflexivity].
  destruct b as [|[] b]; try reflexivity. destruct H.
Qed.

Lemma feature_blk : forall b f g,
    b <> [] -> not_cond_head b -> parse_feature b = FOk g [] -> feature_sem_eq g f ->
    blk_reads b (fun e => eval_feature e f).
Proof.
  intros b f g Hne Hh Hp Hs n _. exists (CFeature g). split.
  - unfold paren_block. rewrite (not_cond_head_none n b Hh), Hp. destruct b; [congruence|reflexivity].
  - exact Hs.
Qed.

Lemma not_cond_colon : forall s l, not_cond_head (TIdent s :: TColon :: l).
Proof. intros; exact I. Qed.
Lemma not_cond_cmp : forall s op l, not_cond_head (TIdent s :: print_cmp op ++ l).
Proof. intros s [] l; exact I. Qed.
Lemma not_cond_value : forall x v l, (forall i, v <> VIdent i) -> not_cond_head (print_value x v ++ l).
Proof.
  intros x v l H. destruct (print_value_head x v l) as [t [r [E [_ [_ [Hb Hi]]]]]]. rewrite E.
  destruct t; cbn; try exact I.
  - exfalso. apply (H s). apply Hi. reflexivity.
  - eapply Hb; reflexivity.
Qed.

Lemma blk_boolean : forall n, wf_name n -> blk_reads [TIdent (print_name n)] (fun e => eval_feature e (FBoolean n)).
Proof.
  intros n H. eapply feature_blk; [discriminate|exact I|apply parse_boolean_body; exact H|].
  intros e; reflexivity.
Qed.
Lemma blk_plain : forall x n v, wf_feature (FPlain n v) ->
    blk_reads (TIdent (print_name n) :: TColon :: print_value x v) (fun e => eval_feature e (FPlain n v)).
Proof.
  intros x n v H. destruct (parse_plain_body x n v H) as [g [E S]].
  eapply feature_blk; eauto; [discriminate|exact I].
Qed.
Lemma blk_range : forall x n op v, wf_feature (FRange n op v) ->
    blk_reads (TIdent (print_name n) :: print_cmp op ++ print_value x v)
              (fun e => eval_feature e (FRange n op v)).
Proof.
  intros x n op v H. destruct (parse_range_body x n op v H) as [g [E S]].
  eapply feature_blk; eauto; [discriminate|apply not_cond_cmp].
Qed.
Lemma blk_eq : forall x n v, wf_feature (FRange n CEq v) ->
    blk_reads (TIdent (print_name n) :: TColon :: print_value x v)
              (fun e => eval_feature e (FRange n CEq v)).
Proof.
  intros x n v H. destruct (parse_eq_body x n v H) as [g [E S]].
  eapply feature_blk; eauto; [discriminate|exact I].
Qed.
Lemma blk_min : forall x n v op p, (op = CGe /\ p = "min-" \/ op = CLe /\ p = "max-") ->
    wf_feature (FRange n op v) ->
    blk_reads (TIdent (print_name_with_prefix p n) :: TColon :: print_value x v)
              (fun e => eval_feature e (FRange n op v)).
Proof.
  intros x n v op p Hp H. destruct (parse_min_body x n v op p Hp H) as [g [E S]].
  eapply feature_blk; eauto; [discriminate|exact I].
Qed.
Lemma blk_interval : forall x n s sop v eop, wf_feature (FInterval n s sop v eop) ->
    blk_reads (print_value x s ++ print_cmp sop ++ TIdent (print_name n)
                        :: print_cmp eop ++ print_value x v)
              (fun e => eval_feature e (FInterval n s sop v eop)).
Proof.
  intros x n s sop v eop H. destruct (parse_interval_body x n s sop v eop H) as [g [E S]].
  eapply feature_blk; eauto.
  - destruct (print_value_head x s (print_cmp sop ++ TIdent (print_name n)
                        :: print_cmp eop ++ print_value x v)) as [t [l [Ev _]]].
    rewrite Ev. discriminate.
  - apply not_cond_value. apply H.
Qed.

(** Negating a comparison other than equality. *)
Lemma eval_range_negate : forall e n op v, op <> CEq ->
    eval_feature e (FRange n (cmp_negate op) v) = tnot (eval_feature e (FRange n op v)).
Proof.
  intros e n op v H. destruct n as [f| |]; try reflexivity.
  cbn [eval_feature]. unfold compare_feature.
  destruct (e_num e f) as [x|]; [|reflexivity]. destruct (den e v) as [y|]; [|reflexivity].
  cbn [tnot option_map]. f_equal.
  destruct op; try congruence; cbn [cmp_negate holds]; rewrite ?negb_involutive; reflexivity.
Qed.

Lemma wf_range_op : forall n op op' v, wf_feature (FRange n op v) -> wf_feature (FRange n op' v).
Proof. intros n op op' v H; exact H. Qed.

(** Lowered comparisons. *)
Definition is_strict (op : comparison_op) : bool := match op with CGt | CLt => true | _ => false end.

Lemma min_max_neg : forall pt op n v, wf_feature (FRange n op v) -> is_strict op = true ->
    exists b, write_min_max pt op n v false = [TIdent "not"; TBlock b]
         /\ write_min_max pt op n v true = [TBlock [TIdent "not"; TBlock b]]
         /\ exists r, blk_reads b r /\ forall e, eval_feature e (FRange n op v) = tnot (r e).
Proof.
  intros pt op n v H Hop. destruct op; try discriminate Hop; cbn [write_min_max].
  - eexists; split; [reflexivity|]. split; [reflexivity|].
    exists (fun e => eval_feature e (FRange n CLe v)). split.
    + apply blk_min; [right; auto|exact H].
    + intros e. apply (eval_range_negate e n CLe v). discriminate.
  - eexists; split; [reflexivity|]. split; [reflexivity|].
    exists (fun e => eval_feature e (FRange n CGe v)). split.
    + apply blk_min; [left; auto|exact H].
    + intros e. apply (eval_range_negate e n CGe v). discriminate.
Qed.

Lemma min_max_single : forall pt op n v ir, wf_feature (FRange n op v) -> is_strict op = false ->
    exists b, write_min_max pt op n v ir = [TBlock b]
         /\ blk_reads b (fun e => eval_feature e (FRange n op v)).
Proof.
  intros pt op n v ir H Hop. destruct op; try discriminate Hop; cbn [write_min_max];
    (eexists; split; [reflexivity|]).
  - apply blk_eq; exact H.
  - apply blk_min; [left; auto|exact H].
  - apply blk_min; [right; auto|exact H].
Qed.

Lemma min_max_true : forall pt op n v, wf_feature (FRange n op v) ->
    exists b, write_min_max pt op n v true = [TBlock b]
         /\ blk_reads b (fun e => eval_feature e (FRange n op v)).
Proof.
  intros pt op n v H. destruct (is_strict op) eqn:E.
  - destruct (min_max_neg pt op n v H E) as [b [_ [E2 [r [R S]]]]].
    eexists; split; [exact E2|]. apply (shape_blk true). right. exists b, r. auto.
  - apply min_max_single; assumption.
Qed.

Lemma interval_lowered : forall pt n s sop v eop,
    wf_feature (FInterval n s sop v eop) -> pt_interval pt = true ->
    JoinShape And (print_feature pt (FInterval n s sop v eop))
              (fun e => eval_feature e (FInterval n s sop v eop)).
Proof.
  intros pt n s sop v eop H Hpt. cbn [print_feature]. rewrite Hpt.
  destruct H as [Hn [Hs [Hv [Cs [Cv [Hr [Hm Hi]]]]]]].
  destruct (min_max_true pt (cmp_opposite sop) n s) as [b1 [E1 R1]]; [repeat split; assumption|].
  destruct (min_max_true pt eop n v) as [b2 [E2 R2]]; [repeat split; assumption|].
  rewrite E1, E2.
  eapply (join_shape_app And); [apply single_join; exact R1|apply single_join; exact R2|].
  intros e. cbn [tfold2]. destruct n as [f| |]; try reflexivity. cbn [eval_feature].
  rewrite compare_value_opposite. reflexivity.
Qed.

Lemma feature_single : forall pt f,
    wf_feature f -> feature_needs_parens pt f None = false ->
    exists b, print_feature pt f = [TBlock b] /\ blk_reads b (fun e => eval_feature e f).
Proof.
  intros pt f H Hp. destruct f as [n v|n|n op v|n s sop v eop]; cbn [print_feature feature_needs_parens] in *.
  - eexists; split; [reflexivity|]. apply blk_plain; exact H.
  - eexists; split; [reflexivity|]. apply blk_boolean; exact H.
  - destruct (pt_range pt).
    + apply min_max_single; [exact H|]. destruct op; try reflexivity; discriminate Hp.
    + eexists; split; [reflexivity|]. apply blk_range; exact H.
  - destruct (pt_interval pt); [discriminate Hp|].
    eexists; split; [reflexivity|]. apply blk_interval; exact H.
Qed.

Lemma feature_shape : forall pt f ao,
    wf_feature f -> Shape ao (print_feature pt f) (fun e => eval_feature e f).
Proof.
  intros pt f ao H. destruct (feature_needs_parens pt f None) eqn:E.
  - destruct f as [n v|n|n op v|n s sop v eop]; cbn [feature_needs_parens] in E; try discriminate E.
    + apply andb_true_iff in E. destruct E as [E1 E2]. cbn [print_feature]. rewrite E1.
      destruct (min_max_neg pt op n v H) as [b [Eb [_ [r [R S]]]]].
      { destruct op; try discriminate E2; reflexivity. }
      rewrite Eb. right. exists b, r. auto.
    + left. exists And. split; [tauto|]. apply interval_lowered; [exact H|].
      destruct (pt_interval pt); [reflexivity|discriminate E].
  - destruct (feature_single pt f H E) as [b [-> R]]. apply single_shape. exact R.
Qed.

Lemma feature_operand : forall pt f op,
    wf_feature f -> JoinShape op (wrap (feature_needs_parens pt f (Some op)) (print_feature pt f))
                         (fun e => eval_feature e f).
Proof.
  intros pt f op H. destruct (feature_needs_parens pt f (Some op)) eqn:E; cbn [wrap].
  - apply single_join. eapply (shape_blk true). apply feature_shape; exact H.
  - destruct (feature_needs_parens pt f None) eqn:E'.
    + destruct f as [n v|n|n op' v|n s sop v eop]; cbn [feature_needs_parens] in *; try congruence.
      destruct op; [|destruct (pt_interval pt); discriminate].
      apply interval_lowered; [exact H|]. destruct (pt_interval pt); [reflexivity|discriminate E'].
    + destruct (feature_single pt f H E') as [b [-> R]]. apply single_join. exact R.
Qed.

(** ** Conditions *)
Fixpoint wf_cond (c : cond) : Prop :=
  match c with
  | CFeature f => wf_feature f
  | CNot d => wf_cond d
  | COp _ cs => cs <> [] /\ (fix go l := match l with [] => True | x :: r => wf_cond x /\ go r end) cs
  | CUnknown _ => False
  end.

Lemma wf_cond_op : forall op cs, wf_cond (COp op cs) <-> cs <> [] /\ Forall wf_cond cs.
Proof.
  intros op cs. cbn [wf_cond]. split; intros [A B]; (split; [exact A|]); clear A.
  - induction cs; constructor; destruct B; auto.
  - induction B; [exact I|split; assumption].
Qed.

Definition not_or (c : cond) : bool :=
  match c with COp Or _ => false | _ => negb (double_not_or c) end.

Lemma shape_wrapped : forall l s, Shape true l s -> JoinShape And [TBlock l] s.
Proof. intros l s H. apply single_join. eapply shape_blk; exact H. Qed.

Lemma print_op_cons : forall pt op c cs,
    print_cond pt (COp op (c :: cs)) =
    wrap (needs_parens pt c (Some op)) (print_cond pt c) ++
    flat_map (fun x => TIdent (operator_name op)
                    :: wrap (needs_parens pt x (Some op)) (print_cond pt x)) cs.
Proof. reflexivity. Qed.

Lemma print_op_cons2 : forall pt op c d cs,
    print_cond pt (COp op (c :: d :: cs)) =
    wrap (needs_parens pt c (Some op)) (print_cond pt c) ++
    TIdent (operator_name op) :: print_cond pt (COp op (d :: cs)).
Proof. intros. rewrite !print_op_cons. reflexivity. Qed.

Lemma print_cond_shape : forall pt c,
    wf_cond c -> printable c = true ->
    Shape true (print_cond pt c) (fun e => eval_cond e c)
    /\ (not_or c = true -> Shape false (print_cond pt c) (fun e => eval_cond e c))
    /\ (forall op, JoinShape op (wrap (needs_parens pt c (Some op)) (print_cond pt c))
                        (fun e => eval_cond e c)).
Proof.
  intros pt c. induction c as [c IH] using cond_strong_ind. intros Hw Hp.
  (* it is enough to have the shape, given that negations are always wrapped *)
  destruct c as [f|d|op cs|l]; [| | |destruct Hw].
  - (* feature *)
    split; [apply (feature_shape pt f true Hw)|].
    split; [intros _; apply (feature_shape pt f false Hw)|].
    intros op. apply (feature_operand pt f op Hw).
  - (* negation *)
    assert (G : Shape true (print_cond pt (CNot d)) (fun e => eval_cond e (CNot d))
                /\ (not_or (CNot d) = true ->
                   Shape false (print_cond pt (CNot d)) (fun e => eval_cond e (CNot d)))).
    { destruct d as [f|x|op cs|l].
      - (* of a feature *)
        cbn [print_cond]. destruct (feature_negate f) as [g|] eqn:E.
        + destruct f as [| |n op v|]; try discriminate E. injection E as <-.
          assert (Hop : op <> CEq) by (intros ->; cbn in Hp; discriminate Hp).
          assert (Hs : forall ao, Shape ao (print_feature pt (FRange n (cmp_negate op) v))
                         (fun e => eval_cond e (CNot (CFeature (FRange n op v))))).
          { intros ao. eapply shape_ext; [|apply (feature_shape pt (FRange n (cmp_negate op) v)); exact Hw].
            intros e. cbn beta. rewrite eval_range_negate by exact Hop. reflexivity. }
          split; [apply Hs|intros _; apply Hs].
        + assert (Hs : forall ao, Shape ao (TIdent "not" :: wrap (feature_needs_parens pt f None)
                                                                (print_feature pt f))
                         (fun e => eval_cond e (CNot (CFeature f)))).
          { intros ao. right. destruct (feature_needs_parens pt f None) eqn:En; cbn [wrap].
            - exists (print_feature pt f), (fun e => eval_feature e f). split; [reflexivity|].
              split; [|reflexivity]. eapply shape_blk. apply (feature_shape pt f true). exact Hw.
            - destruct (feature_single pt f Hw En) as [b [-> R]].
              exists b, (fun e => eval_feature e f). split; [reflexivity|]. split; [exact R|reflexivity]. }
          split; [apply Hs|intros _; apply Hs].
      - (* double negation *)
        cbn [print_cond]. destruct (IH x) as [S1 [S2 _]].
        { cbn [cond_size]. lia. } { exact Hw. }
        { cbn [printable] in Hp. destruct x as [[]| | |]; try exact Hp; try reflexivity. }
        split.
        + eapply shape_ext; [|exact S1]. intros e. cbn [eval_cond]. rewrite tnot_tnot. reflexivity.
        + intros Hn. eapply shape_ext; [|apply S2].
          * intros e. cbn [eval_cond]. rewrite tnot_tnot. reflexivity.
          * cbn [not_or double_not_or] in Hn. destruct x as [f|y|[] cs|l]; try exact Hn; reflexivity.
      - (* of an operation *)
        destruct (IH (COp op cs)) as [S1 _]; [cbn [cond_size]; lia|exact Hw|exact Hp|].
        assert (Hs : forall ao, Shape ao (print_cond pt (CNot (COp op cs)))
                                 (fun e => eval_cond e (CNot (COp op cs)))).
        { intros ao. right. exists (print_cond pt (COp op cs)), (fun e => eval_cond e (COp op cs)).
          split; [reflexivity|]. split; [eapply shape_blk; exact S1|reflexivity]. }
        split; [apply Hs|intros _; apply Hs].
      - destruct Hw. }
    destruct G as [G1 G2]. split; [exact G1|]. split; [exact G2|].
    intros op. cbn [needs_parens wrap]. apply single_join. eapply shape_blk; exact G1.
  - (* operation *)
    apply wf_cond_op in Hw. destruct Hw as [Hne Hw].
    cbn [printable] in Hp.
    assert (J : JoinShape op (print_cond pt (COp op cs)) (fun e => eval_cond e (COp op cs))).
    { assert (IH' : forall x, In x cs ->
                 JoinShape op (wrap (needs_parens pt x (Some op)) (print_cond pt x))
                           (fun e => eval_cond e x)).
      { intros x Hx. apply IH.
        - apply in_size; exact Hx.
        - rewrite Forall_forall in Hw. apply Hw; exact Hx.
        - rewrite forallb_forall in Hp. apply Hp; exact Hx. }
      clear IH Hw Hp. induction cs as [|c cs IHc]; [congruence|].
      destruct cs as [|d cs].
      - rewrite print_op_cons. cbn [flat_map]. rewrite app_nil_r.
        eapply join_ext; [|apply IH'; left; reflexivity].
        intros e. cbn beta. rewrite eval_op. cbn [map]. rewrite tfold_single. reflexivity.
      - rewrite print_op_cons2. eapply join_shape_app.
        + apply IH'; left; reflexivity.
        + apply IHc; [discriminate|]. intros x Hx. apply IH'. right; exact Hx.
        + intros e. cbn beta. rewrite !eval_op. cbn [map]. rewrite tfold_cons. reflexivity. }
    split; [left; exists op; split; [tauto|exact J]|].
    split.
    + intros Hn. left. exists op. split; [|exact J]. right. destruct op; [reflexivity|discriminate Hn].
    + intros op'. cbn [needs_parens]. destruct (operator_eqb op op') eqn:E; cbn [negb wrap].
      * assert (op = op') by (destruct op, op'; try discriminate E; reflexivity). subst op'. exact J.
      * apply single_join. eapply (shape_blk true). left; exists op; split; [tauto|exact J].
Qed.

(** ** Queries *)
Definition wf_query (q : mquery) : Prop :=
  (match mq_type q with
   | MCustom s => media_type_of s = MCustom s /\ (mq_qual q = None -> parse_qualifier s = None)
   | _ => True
   end) /\
  match mq_cond q with Some c => wf_cond c | None => True end.

Lemma parse_qualifier_name : forall q, parse_qualifier (qualifier_name q) = Some q.
Proof. intros []; reflexivity. Qed.

Definition query_sem_eq (a b : mquery) : Prop := forall e, eval_query e a = eval_query e b.

Lemma cond_reads_of_toks : forall ao l s, cond_reads ao l s ->
    exists c, condition_of_toks ao l = Some (c, []) /\ forall e, eval_cond e c = s e.
Proof. intros ao l s H. apply H. lia. Qed.

(** The part after the type. *)
Lemma typed_cond_reads : forall pt c, wf_cond c -> printable c = true -> double_not_or c = false ->
    cond_reads false (wrap (match c with COp Or _ => true | _ => false end) (print_cond pt c))
               (fun e => eval_cond e c).
Proof.
  intros pt c Hw Hp Hd. destruct (print_cond_shape pt c Hw Hp) as [S1 [S2 _]].
  apply shape_reads.
  destruct c as [f|d|[] cs|l]; cbn [wrap]; try (apply S2; cbn [not_or]; rewrite Hd; reflexivity).
  apply single_shape. eapply shape_blk. exact S1.
Qed.

Lemma parse_print_query : forall pt q,
    wf_query q -> printable_query q = true ->
    exists q', parse_query (print_query pt q) = Some q' /\ query_sem_eq q' q.
Proof.
  intros pt [qu ty co] [Ht Hc] Hp. cbn [mq_qual mq_type mq_cond] in *.
  unfold printable_query in Hp. cbn [mq_qual mq_type mq_cond] in Hp.
  (* pure condition *)
  assert (Pure : forall c, co = Some c -> ty = MAll -> qu = None ->
            exists q', parse_query (print_query pt (MQ qu ty co)) = Some q' /\ query_sem_eq q' (MQ qu ty co)).
  { intros c -> -> ->. unfold print_query; cbn [mq_qual mq_type mq_cond app].
    rewrite andb_true_r in Hp.
    destruct (print_cond_shape pt c Hc Hp) as [S1 _].
    assert (Pf : parse_prefix (print_cond pt c) = (None, print_cond pt c)).
    { destruct (shape_head _ _ _ S1) as [[b [r E]]|[b E]]; rewrite E; reflexivity. }
    unfold parse_query. rewrite Pf.
    destruct (cond_reads_of_toks _ _ _ (shape_reads _ _ _ S1)) as [c' [E S]]. rewrite E.
    eexists; split; [reflexivity|]. intros e. unfold eval_query. cbn [mq_qual mq_type mq_cond].
    rewrite S. reflexivity. }
  assert (NoCond : co = None ->
            exists q', parse_query (print_query pt (MQ qu ty co)) = Some q' /\ query_sem_eq q' (MQ qu ty co)).
  { intros ->. exists (MQ qu ty None). split; [|intros e; reflexivity].
    unfold print_query; cbn [mq_qual mq_type mq_cond].
    destruct qu as [qu|]; unfold parse_query, parse_prefix.
    - destruct ty; cbn [app media_type_name]; rewrite parse_qualifier_name; try reflexivity.
      destruct Ht as [-> _]. reflexivity.
    - destruct ty; cbn [app media_type_name]; try reflexivity.
      destruct Ht as [E1 E2]. rewrite (E2 eq_refl), E1. reflexivity. }
  destruct co as [c|]; [|apply NoCond; reflexivity].
  apply andb_true_iff in Hp. destruct Hp as [Hp Hd].
  assert (Typed : (ty = MAll -> qu <> None) ->
            exists q', parse_query (print_query pt (MQ qu ty (Some c))) = Some q'
                  /\ query_sem_eq q' (MQ qu ty (Some c))).
  { intros Hty.
    assert (Hd' : double_not_or c = false).
    { destruct ty, qu; try (apply negb_true_iff; exact Hd). exfalso; apply Hty; reflexivity. }
    destruct (cond_reads_of_toks _ _ _ (typed_cond_reads pt c Hc Hp Hd')) as [c' [E S]].
    exists (MQ qu ty (Some c')). split.
    - unfold print_query; cbn [mq_qual mq_type mq_cond].
      destruct qu as [qu|]; unfold parse_query, parse_prefix.
      + destruct ty; cbn [app media_type_name]; rewrite parse_qualifier_name;
          change (ieq "and" "and") with true; cbn iota; try (rewrite E; reflexivity).
        destruct Ht as [-> _]. rewrite E. reflexivity.
      + destruct ty; cbn [app media_type_name].
        * exfalso; apply Hty; reflexivity.
        * change (parse_qualifier "print") with (@None qualifier). cbn iota.
          change (ieq "and" "and") with true. cbn iota. rewrite E. reflexivity.
        * change (parse_qualifier "screen") with (@None qualifier). cbn iota.
          change (ieq "and" "and") with true. cbn iota. rewrite E. reflexivity.
        * destruct Ht as [E1 E2]. rewrite (E2 eq_refl), E1.
          change (ieq "and" "and") with true. cbn iota. rewrite E. reflexivity.
    - intros e. unfold eval_query. cbn [mq_qual mq_type mq_cond]. rewrite S. reflexivity. }
  destruct ty; try (apply Typed; discriminate).
  destruct qu as [qu|]; [apply Typed; discriminate|]. eapply Pure; reflexivity.
Qed.

(** ** Lists *)
Definition no_comma (l : list tok) : Prop := ~ In TComma l.

Lemma split_no_comma : forall l, no_comma l -> split_comma l = (l, None).
Proof.
  induction l as [|t l IH]; intros H; [reflexivity|].
  cbn [split_comma]. rewrite IH by (intros Hi; apply H; right; exact Hi).
  destruct t; try reflexivity. exfalso; apply H; left; reflexivity.
Qed.
Lemma split_no_comma_app : forall l r, no_comma l -> split_comma (l ++ TComma :: r) = (l, Some r).
Proof.
  induction l as [|t l IH]; intros r H; [reflexivity|].
  cbn [split_comma app]. rewrite IH by (intros Hi; apply H; right; exact Hi).
  destruct t; try reflexivity. exfalso; apply H; left; reflexivity.
Qed.

Lemma shape_no_comma : forall ao l s, Shape ao l s -> no_comma l.
Proof.
  intros ao l s [[op [_ [bs [Hne [-> _]]]]]|[b [r [-> _]]]].
  - destruct bs as [|[b1 s1] bs]; [congruence|]. clear Hne. cbn [map]. rewrite join_tail.
    intros [H|H]; [discriminate H|]. unfold tail_toks in H. apply in_flat_map in H.
    destruct H as [x [_ [H|[H|[]]]]]; discriminate H.
  - intros [H|[H|[]]]; discriminate H.
Qed.

Lemma wrap_no_comma : forall b l, no_comma l -> no_comma (wrap b l).
Proof. intros [] l H; [intros [E|[]]; discriminate E|exact H]. Qed.

Lemma print_query_no_comma : forall pt q,
    wf_query q -> printable_query q = true -> no_comma (print_query pt q).
Proof.
  intros pt [qu ty co] [Ht Hc] Hp. unfold printable_query in Hp. unfold print_query in *; cbn [mq_qual mq_type mq_cond] in *.
  intros Hin. apply in_app_or in Hin. destruct Hin as [Hin|Hin].
  { destruct qu; [destruct Hin as [Hin|[]]; discriminate Hin|destruct Hin]. }
  apply in_app_or in Hin. destruct Hin as [Hin|Hin].
  { destruct ty; [destruct qu, co| | |]; cbn in Hin; try destruct Hin as [Hin|[]]; try discriminate Hin; destruct Hin. }
  destruct co as [c|]; [|destruct Hin]. apply andb_true_iff in Hp. destruct Hp as [Hp _].
  destruct (print_cond_shape pt c Hc Hp) as [S1 _].
  pose proof (shape_no_comma _ _ _ S1) as N1.
  assert (N2 : no_comma (TIdent "and" :: wrap (match c with COp Or _ => true | _ => false end) (print_cond pt c))).
  { intros [E|E]; [discriminate E|]. eapply wrap_no_comma; eauto. }
  destruct ty, qu; try (apply N2; exact Hin); apply N1; exact Hin.
Qed.

Lemma print_query_nonempty : forall pt q,
    wf_query q -> printable_query q = true -> print_query pt q <> [].
Proof.
  intros pt q Hw Hp E. destruct (parse_print_query pt q Hw Hp) as [q' [Hq _]].
  rewrite E in Hq. vm_compute in Hq. discriminate Hq.
Qed.

Lemma parse_print_queries : forall pt l n,
    Forall wf_query l -> forallb printable_query l = true -> l <> [] ->
    (List.length l <= n)%nat ->
    exists l', parse_list_fuel n (print_queries pt l) = Some l' /\ Forall2 query_sem_eq l' l.
Proof.
  intros pt l. induction l as [|q l IH]; intros n Hw Hp Hne Hn; [congruence|].
  destruct n as [|n]; [cbn in Hn; lia|].
  inversion_clear Hw as [|? ? Hq Hl]. cbn [forallb] in Hp. apply andb_true_iff in Hp.
  destruct Hp as [Hpq Hpl].
  destruct (parse_print_query pt q Hq Hpq) as [q' [E S]].
  pose proof (print_query_nonempty pt q Hq Hpq) as Hne1.
  pose proof (print_query_no_comma pt q Hq Hpq) as Hnc.
  destruct l as [|q2 l].
  - cbn [print_queries parse_list_fuel]. rewrite (split_no_comma _ Hnc), E.
    exists [q']. destruct (print_query pt q); [congruence|]. split; [reflexivity|].
    repeat constructor; exact S.
  - change (print_queries pt (q :: q2 :: l))
      with (print_query pt q ++ TComma :: print_queries pt (q2 :: l)).
    cbn [parse_list_fuel]. rewrite (split_no_comma_app _ _ Hnc), E.
    destruct (IH n) as [l' [E' S']]; [exact Hl|exact Hpl|discriminate|cbn in Hn |- *; lia|].
    rewrite E'. exists (q' :: l'). destruct (print_query pt q); [congruence|].
    split; [reflexivity|]. constructor; assumption.
Qed.

Lemma print_queries_length : forall pt l,
    Forall wf_query l -> forallb printable_query l = true ->
    (List.length l <= List.length (print_queries pt l))%nat.
Proof.
  intros pt l. induction l as [|q l IH]; intros Hw Hp; [reflexivity|].
  inversion_clear Hw as [|? ? Hq Hl]. cbn [forallb] in Hp. apply andb_true_iff in Hp.
  destruct Hp as [Hpq Hpl]. pose proof (print_query_nonempty pt q Hq Hpq) as Hne.
  specialize (IH Hl Hpl).
  destruct l as [|q2 l].
  - cbn [print_queries List.length]. destruct (print_query pt q); [congruence|cbn; lia].
  - change (print_queries pt (q :: q2 :: l))
      with (print_query pt q ++ TComma :: print_queries pt (q2 :: l)).
    rewrite app_length. cbn [List.length] in *. lia.
Qed.

Theorem parse_print_list : forall pt l,
    Forall wf_query l -> forallb printable_query l = true -> l <> [] ->
    exists l', parse_list (print_list pt l) = Some l' /\ Forall2 query_sem_eq l' l.
Proof.
  intros pt l Hw Hp Hne. pose proof (print_queries_length pt l Hw Hp) as HL.
  assert (E : print_list pt l = print_queries pt l) by (destruct l; [congruence|reflexivity]).
  rewrite E. unfold parse_list.
  destruct (print_queries pt l) as [|t r] eqn:Epq.
  - destruct l; [congruence|cbn in HL; lia].
  - rewrite <- Epq in *. apply parse_print_queries; try assumption. lia.
Qed.

Lemma list_matches_sem_eq : forall l l', Forall2 query_sem_eq l' l ->
    forall e, list_matches e l' = list_matches e l.
Proof.
  intros l l' H e. unfold list_matches.
  assert (G : existsb (query_matches e) l' = existsb (query_matches e) l).
  { induction H as [|a b l' l Hab H IH]; [reflexivity|]. cbn [existsb]. rewrite IH.
    unfold query_matches. rewrite (Hab e). reflexivity. }
  destruct H; [reflexivity|]. exact G.
Qed.

(** ** Lowering leaves no range syntax *)
Lemma print_value_no_cmp : forall x v, forallb no_comparison (print_value x v) = true.
Proof.
  intros x v. destruct v; cbn [print_value]; unfold print_length, print_resolution, num_tok; try reflexivity.
  - destruct (Qeq_bool q 0); reflexivity.
  - destruct u; reflexivity.
  - destruct (Qeq_bool b 1); reflexivity.
Qed.

Lemma write_min_max_no_cmp : forall pt op n v ir,
    forallb no_comparison (write_min_max pt op n v ir) = true.
Proof.
  intros pt op n v ir.
  pose proof (print_value_no_cmp (pt_x pt) v) as H.
  destruct op, ir; cbn [write_min_max forallb no_comparison andb]; rewrite ?H; reflexivity.
Qed.

Lemma print_feature_no_cmp : forall pt f, pt_range pt = true -> pt_interval pt = true ->
    forallb no_comparison (print_feature pt f) = true.
Proof.
  intros pt f Hr Hi. destruct f as [n v|n|n op v|n s sop v eop]; cbn [print_feature].
  - cbn [forallb no_comparison andb]. rewrite print_value_no_cmp. reflexivity.
  - reflexivity.
  - rewrite Hr. apply write_min_max_no_cmp.
  - rewrite Hi. rewrite forallb_app. cbn [forallb no_comparison andb].
    rewrite !write_min_max_no_cmp. reflexivity.
Qed.

Lemma wrap_no_cmp : forall b l, forallb no_comparison (wrap b l) = forallb no_comparison l.
Proof. intros [] l; cbn [wrap forallb no_comparison]; [apply andb_true_r|reflexivity]. Qed.

Lemma print_cond_no_cmp : forall pt c, pt_range pt = true -> pt_interval pt = true -> wf_cond c ->
    forallb no_comparison (print_cond pt c) = true.
Proof.
  intros pt c Hr Hi. induction c as [c IH] using cond_strong_ind. intros Hw.
  destruct c as [f|d|op cs|l]; [| | |destruct Hw].
  - apply print_feature_no_cmp; assumption.
  - destruct d as [f|x|op cs|l]; [| | |destruct Hw].
    + cbn [print_cond]. destruct (feature_negate f); [apply print_feature_no_cmp; assumption|].
      cbn [forallb no_comparison andb]. rewrite wrap_no_cmp. apply print_feature_no_cmp; assumption.
    + cbn [print_cond]. apply IH; [cbn [cond_size]; lia|exact Hw].
    + change (print_cond pt (CNot (COp op cs)))
        with (TIdent "not" :: wrap (needs_parens pt (COp op cs) None) (print_cond pt (COp op cs))).
      cbn [forallb no_comparison andb]. rewrite wrap_no_cmp. apply IH; [cbn [cond_size]; lia|exact Hw].
  - apply wf_cond_op in Hw. destruct Hw as [_ Hw]. destruct cs as [|c cs]; [reflexivity|].
    rewrite print_op_cons. rewrite Forall_forall in Hw.
    assert (Hx : forall x, In x (c :: cs) -> forallb no_comparison (print_cond pt x) = true).
    { intros x Hin. apply IH; [apply in_size; exact Hin|apply Hw; exact Hin]. }
    rewrite forallb_app, wrap_no_cmp, (Hx c (or_introl eq_refl)). cbn [andb].
    clear IH Hw. induction cs as [|y cs IHc]; [reflexivity|]. cbn [flat_map app forallb no_comparison andb].
    rewrite forallb_app, wrap_no_cmp, (Hx y) by (right; left; reflexivity). cbn [andb].
    apply IHc. intros x [<-|Hin]; apply Hx; [left; reflexivity|right; right; exact Hin].
Qed.

Lemma print_query_no_cmp : forall pt q, pt_range pt = true -> pt_interval pt = true -> wf_query q ->
    forallb no_comparison (print_query pt q) = true.
Proof.
  intros pt [qu ty co] Hr Hi [_ Hc]. cbn [mq_cond] in Hc. unfold print_query.
  cbn [mq_qual mq_type mq_cond]. destruct co as [c|].
  - pose proof (print_cond_no_cmp pt c Hr Hi Hc) as P.
    destruct ty, qu; cbn [app forallb no_comparison andb]; rewrite ?wrap_no_cmp; exact P.
  - destruct ty, qu; reflexivity.
Qed.

Lemma print_list_no_cmp : forall pt l, pt_range pt = true -> pt_interval pt = true -> Forall wf_query l ->
    forallb no_comparison (print_list pt l) = true.
Proof.
  intros pt l Hr Hi Hw.
  assert (G : forallb no_comparison (print_queries pt l) = true).
  { induction Hw as [|q l Hq Hl IH]; [reflexivity|].
    pose proof (print_query_no_cmp pt q Hr Hi Hq) as P. destruct l as [|q2 l]; [exact P|].
    change (print_queries pt (q :: q2 :: l))
      with (print_query pt q ++ TComma :: print_queries pt (q2 :: l)).
    rewrite forallb_app, P. cbn [forallb no_comparison andb]. exact IH. }
  destruct l; [reflexivity|exact G].
Qed.
