(** Proofs that everything the parser accepts is well formed, so that the printing theorems apply
    to every parsed list. *)
From Coq Require Import List String Ascii Bool ZArith QArith Lia.
From Verif Require Import MediaModel MediaSpec MediaPrintProofs MediaShapeProofs.
Import ListNotations.
Open Scope string_scope.
Open Scope list_scope.

Lemma parse_name_wf : forall s n lg, parse_name s = (n, lg) -> wf_name n.
Proof.
  intros s n lg H. pose proof H as H0. unfold parse_name in H.
  destruct (strip_prefix "--" s) as [r|] eqn:E.
  { injection H as <- _. cbn [wf_name]. eauto. }
  cbv zeta in H.
  match type of H with (let (a, b) := ?X in _) = _ => destruct X as [w nm] eqn:EX end.
  match type of H with (let (a, b) := ?X in _) = _ => destruct X as [cmp nm2] eqn:EY end.
  match type of H with match ?X with _ => _ end = _ => destruct X as [f|] eqn:EZ end.
  - injection H as <- _. exact I.
  - injection H as <- <-. exact H0.
Qed.

Lemma parse_length_wf : forall l v r, parse_length l = Some (v, r) -> wf_value v.
Proof.
  intros [|[] rest] v r H; cbn [parse_length] in H; try discriminate H.
  - injection H as <- _. reflexivity.
  - destruct (is_length_unit (lower unit)) eqn:E; [|discriminate H]. injection H as <- _. exact E.
Qed.

Ltac inj H := injection H as <- <-.

Lemma parse_unknown_wf : forall l v r, parse_unknown l = Some (v, r) -> wf_value v.
Proof.
  intros l v r H. unfold parse_unknown in H.
  destruct (parse_ratio_required l) as [[v' r']|] eqn:E1.
  { unfold parse_ratio_required in E1.
    destruct (parse_number l) as [[a r1]|]; [|discriminate E1].
    destruct r1 as [|[] r1]; try discriminate E1.
    destruct c as [[] [] [] [] [] [] [] []]; try discriminate E1.
    destruct (parse_number r1) as [[b r2]|]; [|discriminate E1].
    inj E1. inj H. exact I. }
  destruct (parse_number l) as [[a r1]|]; [inj H; exact I|].
  destruct (parse_length l) as [[a r1]|] eqn:E2; [inj H; eapply parse_length_wf; exact E2|].
  destruct (parse_resolution l) as [[a r1]|] eqn:E3.
  { unfold parse_resolution in E3. destruct l as [|[] rest]; try discriminate E3.
    destruct (parse_res_unit (lower unit)); [|discriminate E3]. inj E3. inj H. exact I. }
  destruct l as [|[] rest]; cbn in H; try discriminate H; inj H; exact I.
Qed.

Lemma parse_value_wf : forall l t v r, parse_value l t = Some (v, r) -> wf_value v.
Proof.
  intros l t v r H. unfold parse_value in H.
  destruct (parse_known l t) as [[v' r']|] eqn:E; [inj H|eapply parse_unknown_wf; exact H].
  destruct t; cbn [parse_known] in E.
  - eapply parse_length_wf; exact E.
  - destruct (parse_number l) as [[a r1]|]; [inj E; exact I|discriminate E].
  - destruct (parse_integer l) as [[a r1]|]; [inj E; exact I|discriminate E].
  - destruct (parse_integer l) as [[a r1]|]; [|discriminate E].
    destruct (Z.eqb a 0 || Z.eqb a 1); [inj E; exact I|discriminate E].
  - unfold parse_resolution in E. destruct l as [|[] rest]; try discriminate E.
    destruct (parse_res_unit (lower unit)); [|discriminate E]. inj E. exact I.
  - unfold parse_ratio in E. destruct (parse_number l) as [[a r1]|]; [|discriminate E].
    destruct r1 as [|[] r1]; try (inj E; exact I).
    destruct c as [[] [] [] [] [] [] [] []]; try (inj E; exact I).
    destruct (parse_number r1) as [[b r2]|]; [inj E; exact I|discriminate E].
  - destruct l as [|[] rest]; try discriminate E. inj E. exact I.
  - discriminate E.
Qed.

(** A keyword is always read as a value. *)
Lemma parse_value_ident : forall s l t, parse_value (TIdent s :: l) t = Some (VIdent s, l).
Proof. intros s l []; reflexivity. Qed.

Lemma parse_value_is_ident : forall l t i r,
    parse_value l t = Some (VIdent i, r) -> l = TIdent i :: r.
Proof.
  intros l t i r H. destruct l as [|tk l].
  - destruct t; discriminate H.
  - destruct tk.
    + rewrite parse_value_ident in H. injection H as -> ->. reflexivity.
    + exfalso. unfold parse_value, parse_known, parse_unknown, parse_ratio_required, parse_ratio,
        parse_number, parse_integer, parse_length, parse_resolution, parse_ident_value in H.
      destruct t; repeat (match type of H with context [match ?x with _ => _ end] =>
                            lazymatch x with
                            | context [match _ with _ => _ end] => fail
                            | _ => destruct x
                            end end; try discriminate H); discriminate H.
    + exfalso. unfold parse_value, parse_known, parse_unknown, parse_ratio_required, parse_ratio,
        parse_number, parse_integer, parse_length, parse_resolution, parse_ident_value in H.
      destruct t; try discriminate H;
        destruct (is_length_unit (lower unit)); try discriminate H;
        destruct (parse_res_unit (lower unit)); discriminate H.
    + destruct t; discriminate H.
    + destruct t; discriminate H.
    + destruct t; discriminate H.
    + destruct t; discriminate H.
    + destruct t; discriminate H.
Qed.

Lemma consume_false_true : forall l o r,
    consume_op l false = Some (Some o, r) -> consume_op l true = Some (Some o, r).
Proof. intros [|[] rest] o r H; cbn in H; try discriminate H; exact H. Qed.

Lemma unknown_ranges : allows_ranges FTUnknown = true.
Proof. reflexivity. Qed.

Lemma parse_name_first_wf : forall l f r, parse_name_first l = FOk f r -> wf_feature f.
Proof.
  intros l f r H. unfold parse_name_first in H.
  destruct l as [|[] rest]; try discriminate H.
  destruct (parse_name s) as [n lg] eqn:En. pose proof (parse_name_wf _ _ _ En) as Wn.
  destruct (consume_op rest true) as [[op l2]|]; [|injection H as <- _; exact Wn].
  assert (G : match parse_value l2 (name_type n) with
          | Some (v, l3) =>
            if check_type v (name_type n)
            then
             match (match op with Some o => Some o | None => lg end) with
             | Some o =>
                 if allows_ranges (name_type n) then FOk (FRange n o v) l3 else ErrInvalid
             | None => FOk (FPlain n v) l3
             end
            else ErrInvalid
          | None => ErrOther
          end = FOk f r).
  { destruct op as [o|], lg as [g|]; try discriminate H; exact H. }
  clear H. destruct (parse_value l2 (name_type n)) as [[v l3]|] eqn:Ev; [|discriminate G].
  pose proof (parse_value_wf _ _ _ _ Ev) as Wv.
  destruct (check_type v (name_type n)) eqn:Ec; [|discriminate G].
  destruct (match op with Some o => Some o | None => lg end) as [o|].
  - destruct (allows_ranges (name_type n)) eqn:Er; [|discriminate G]. injection G as <- _.
    repeat split; assumption.
  - injection G as <- _. repeat split; assumption.
Qed.

Lemma parse_feature_wf : forall l f r, parse_feature l = FOk f r -> wf_feature f.
Proof.
  intros l f r H. unfold parse_feature in H.
  destruct (parse_name_first l) as [f' r'| |] eqn:E1; [|discriminate H|].
  { injection H as <- <-. eapply parse_name_first_wf; exact E1. }
  unfold parse_value_first in H.
  destruct (find_name l) as [[n [lg|]]|] eqn:En; try discriminate H.
  assert (Wn : wf_name n).
  { revert En. clear. induction l as [|t l IH]; [discriminate|].
    destruct t; cbn [find_name]; try exact IH. intros En. injection En as En.
    eapply parse_name_wf; exact En. }
  cbv zeta in H. destruct (parse_value l (name_type n)) as [[v l1]|] eqn:Ev; [|discriminate H].
  pose proof (parse_value_wf _ _ _ _ Ev) as Wv.
  destruct (consume_op l1 false) as [[[op|] l2]|] eqn:Eo; try discriminate H.
  destruct l2 as [|[s| | | | | | |] l3]; try discriminate H.
  destruct (allows_ranges (name_type n)) eqn:Er; [|discriminate H].
  destruct (check_type v (name_type n)) eqn:Ec; [|discriminate H]. cbn [negb orb] in H.
  destruct (consume_op l3 false) as [[[eop|] l4]|] eqn:Ee;
    try (injection H as <- _; repeat split; assumption).
  destruct (matching_ops op eop) eqn:Em; [|discriminate H].
  destruct (parse_value l4 (name_type n)) as [[v' l5]|] eqn:Ev'; [|discriminate H].
  pose proof (parse_value_wf _ _ _ _ Ev') as Wv'.
  destruct (check_type v' (name_type n)) eqn:Ec'; [|discriminate H]. injection H as <- _.
  cbn [wf_feature]. repeat split; try assumption.
  intros i ->. pose proof (parse_value_is_ident _ _ _ _ Ev) as ->.
  (* the name-first attempt would not have failed this way *)
  unfold parse_name_first in E1. destruct (parse_name i) as [n1 lg1] eqn:En1.
  rewrite (consume_false_true _ _ _ Eo) in E1.
  destruct lg1; [discriminate E1|]. rewrite parse_value_ident in E1.
  destruct (check_type (VIdent s) (name_type n1)); [|discriminate E1].
  destruct (allows_ranges (name_type n1)); discriminate E1.
Qed.

Lemma parse_tail_wf : forall block op,
    (forall b c, block b = Some c -> wf_cond c) ->
    forall k l acc c r, (List.length l <= k)%nat ->
      Forall wf_cond acc -> acc <> [] -> parse_tail block op acc l = Some (c, r) -> wf_cond c.
Proof.
  intros block op HB k. induction k as [|k IH]; intros l acc c r Hk HA HN H.
  - destruct l; [|cbn in Hk; lia]. cbn in H. injection H as <- _. apply wf_cond_op. auto.
  - assert (End : forall x, Some (COp op acc, x) = Some (c, r) -> wf_cond c).
    { intros x E. injection E as <- _. apply wf_cond_op; auto. }
    destruct l as [|[s| | | | | | |] l]; cbn [parse_tail] in H; try (eapply End; exact H).
    destruct (ieq s (operator_name op)); [|eapply End; exact H].
    destruct l as [|[| | | | | | |b] l]; try discriminate H.
    destruct (block b) as [c'|] eqn:Eb; [|discriminate H].
    eapply IH; [|apply Forall_app; split; [exact HA|repeat constructor; eapply HB; exact Eb]
               |destruct acc; discriminate|exact H].
    cbn in Hk. lia.
Qed.

Lemma parse_condition_wf : forall n ao l c r, parse_condition n ao l = Some (c, r) -> wf_cond c.
Proof.
  induction n as [|n IH]; intros ao l c r H; [discriminate H|].
  assert (HB : forall b c, paren_block (parse_condition n true) b = Some c -> wf_cond c).
  { intros b d Hb. unfold paren_block in Hb. destruct b as [|t b]; [discriminate Hb|].
    destruct (parse_condition n true (t :: b)) as [[c0 [|]]|] eqn:E; try discriminate Hb.
    - injection Hb as <-. eapply IH; exact E.
    - destruct (parse_feature (t :: b)) as [f [|]| |] eqn:Ef; try discriminate Hb.
      injection Hb as <-. eapply parse_feature_wf; exact Ef. }
  cbn [parse_condition] in H.
  destruct l as [|[s| | | | | | |b] l]; try discriminate H.
  - destruct (ieq s "not"); [|discriminate H].
    destruct l as [|[| | | | | | |b] l]; try discriminate H.
    destruct (paren_block (parse_condition n true) b) as [d|] eqn:E; [|discriminate H].
    injection H as <- _. exact (HB _ _ E).
  - destruct (paren_block (parse_condition n true) b) as [d|] eqn:E; [|discriminate H].
    pose proof (HB _ _ E) as Wd.
    assert (End : forall x, Some (d, x) = Some (c, r) -> wf_cond c)
      by (intros x Ex; injection Ex as <- _; exact Wd).
    destruct l as [|[s| | | | | | |] l]; try (eapply End; exact H).
    destruct (parse_operator s) as [op|]; [|eapply End; exact H].
    destruct (negb ao && operator_eqb op Or); [discriminate H|].
    destruct l as [|[| | | | | | |b2] l]; try discriminate H.
    destruct (paren_block (parse_condition n true) b2) as [d2|] eqn:E2; [|discriminate H].
    eapply parse_tail_wf; [exact HB|reflexivity| | |exact H].
    + repeat constructor; [exact Wd|exact (HB _ _ E2)].
    + discriminate.
Qed.

Lemma media_type_of_custom : forall t s, media_type_of t = MCustom s -> s = t.
Proof.
  intros t s H. unfold media_type_of in H.
  destruct (ieq t "all"); [discriminate H|]. destruct (ieq t "print"); [discriminate H|].
  destruct (ieq t "screen"); [discriminate H|]. injection H as ->. reflexivity.
Qed.

Lemma parse_query_wf : forall l q, parse_query l = Some q -> wf_query q.
Proof.
  intros l q H. unfold parse_query in H.
  destruct (parse_prefix l) as [[[qu ty]|] l1] eqn:E.
  - assert (Wt : match ty with
                 | MCustom s => media_type_of s = MCustom s /\ (qu = None -> parse_qualifier s = None)
                 | _ => True end).
    { unfold parse_prefix in E. destruct l as [|[s| | | | | | |] l]; try discriminate E.
      destruct (parse_qualifier s) as [x|] eqn:Eq.
      - destruct l as [|[t| | | | | | |] l]; try discriminate E. injection E as <- E _.
        destruct ty as [| | |u]; try exact I. pose proof (media_type_of_custom _ _ E) as ->.
        split; [exact E|discriminate].
      - injection E as <- E _. destruct ty as [| | |u]; try exact I.
        pose proof (media_type_of_custom _ _ E) as ->. split; [exact E|intros _; exact Eq]. }
    assert (G : exists c, q = MQ qu ty c /\ match c with Some c => wf_cond c | None => True end).
    { destruct l1 as [|[s| | | | | | |] l1]; try discriminate H.
      - injection H as <-. eexists; split; [reflexivity|exact I].
      - destruct (ieq s "and"); [|discriminate H].
        destruct (condition_of_toks false l1) as [[c [|]]|] eqn:Ec; try discriminate H.
        injection H as <-. eexists; split; [reflexivity|]. eapply parse_condition_wf; exact Ec. }
    destruct G as [c [-> Wc]]. split; assumption.
  - destruct (condition_of_toks true l) as [[c [|]]|] eqn:Ec; try discriminate H.
    injection H as <-. split; [exact I|]. eapply parse_condition_wf; exact Ec.
Qed.

Lemma parse_list_wf : forall l ml, parse_list l = Some ml -> Forall wf_query ml.
Proof.
  assert (G : forall n l ml, parse_list_fuel n l = Some ml -> Forall wf_query ml).
  { induction n as [|n IH]; intros l ml H; [discriminate H|].
    cbn [parse_list_fuel] in H. destruct (split_comma l) as [part rest].
    destruct part as [|t part]; [injection H as <-; constructor|].
    destruct (parse_query (t :: part)) as [q|] eqn:Eq; [|discriminate H].
    pose proof (parse_query_wf _ _ Eq) as Wq.
    destruct rest as [r|]; [|injection H as <-; constructor; [assumption|constructor]].
    destruct (parse_list_fuel n r) as [qs|] eqn:E; [|discriminate H].
    injection H as <-. constructor; [exact Wq|]. eapply IH; exact E. }
  intros l ml H. unfold parse_list in H. destruct l; [injection H as <-; constructor|].
  eapply G; exact H.
Qed.

(** Nothing the parser accepts contains raw tokens, so [printable] only excludes negated
    equalities. *)
Theorem media_round_trip : forall pt toks ml,
    parse_list toks = Some ml -> ml <> [] -> forallb printable_query ml = true ->
    exists ml', parse_list (print_list pt ml) = Some ml'
           /\ forall e, list_matches e ml' = list_matches e ml.
Proof.
  intros pt toks ml H Hne Hp.
  destruct (parse_print_list pt ml (parse_list_wf _ _ H) Hp Hne) as [ml' [E S]].
  exists ml'. split; [exact E|]. apply list_matches_sem_eq. exact S.
Qed.
