(** * Proofs about small values *)
From Coq Require Import List String Bool ZArith QArith Lia.
From Verif Require Import MediaModel MediaPrintProofs ValueModel ValueSpec.
Import ListNotations.
Open Scope string_scope.
Open Scope list_scope.

(** ** Rect and Size2D *)
Section Rect.
Variable T : Type.
Variable parse : vparser T.
Variable eqb : T -> T -> bool.
Variable print : T -> list vtok.
Variable R : T -> T -> Prop.
Variable ok : T -> Prop.
Hypothesis HP : forall x rest, ok x -> exists y, parse (print x ++ rest) = Some (y, rest) /\ R x y.
Hypothesis HE : forall x y z, eqb x y = true -> R x z <-> R y z.

Ltac step := match goal with
    | |- context [parse (print ?x ++ ?r)] =>
        let y := fresh "y" in let E := fresh "E" in let H := fresh "H" in
        destruct (HP x r ltac:(assumption)) as [y [E H]]; rewrite E
    end.

Lemma rect_round : forall rest r, rect_all ok r -> parse rest = None ->
    exists r', parse_rect T parse (print_rect T eqb print r ++ rest) = Some (r', rest) /\ rect_rel R r r'.
Proof.
  intros rest [a b c d] (Ha & Hb & Hc & Hd) HN. unfold print_rect, rect_components.
  destruct (eqb a c) eqn:Eac, (eqb b d) eqn:Ebd, (eqb a b) eqn:Eab;
    cbn [andb flat_map]; rewrite ?app_nil_r, <- ?app_assoc; unfold parse_rect.
  all: repeat step; rewrite ?HN.
  all: eexists; split; [reflexivity|]; cbn [rect_rel]; repeat split; try assumption.
  all: repeat match goal with
    | E : eqb ?x ?y = true, H : R ?x ?z |- R ?y ?z => apply (HE x y z E); exact H
    | E : eqb ?x ?y = true |- R ?y ?z => apply (HE x y z E)
    end; assumption.
Qed.

Lemma size_round : forall rest s, size_all ok s -> parse rest = None ->
    exists s', parse_size2d T parse (print_size2d T eqb print s ++ rest) = Some (s', rest) /\ size_rel R s s'.
Proof.
  intros rest [a b] (Ha & Hb) HN. unfold print_size2d, size2d_components.
  destruct (eqb b a) eqn:E; cbn [flat_map]; rewrite ?app_nil_r, <- ?app_assoc; unfold parse_size2d.
  all: repeat step; rewrite ?HN.
  all: eexists; split; [reflexivity|]; cbn [size_rel]; repeat split; try assumption.
  apply (HE b a y E); assumption.
Qed.

Lemma rect_eqb_rel : forall r s t, rect_eqb T eqb r s = true -> rect_rel R r t -> rect_rel R s t.
Proof.
  intros [a b c d] [a' b' c' d'] [x y z w]. cbn [rect_eqb rect_rel].
  rewrite !andb_true_iff. intros [[[E1 E2] E3] E4] (H1 & H2 & H3 & H4).
  split; [|split; [|split]].
  - apply (HE a a' x E1); assumption.
  - apply (HE b b' y E2); assumption.
  - apply (HE c c' z E3); assumption.
  - apply (HE d d' w E4); assumption.
Qed.

Lemma radii_round : forall rest r, radii_all ok r -> parse rest = None ->
    (forall l, parse (TkDelim "/" :: l) = None) -> (forall l, rest <> TkDelim "/" :: l) ->
    exists r', parse_radii T parse (print_radii T eqb print r ++ rest) = Some (r', rest) /\ radii_rel R r r'.
Proof.
  intros rest [[a a'] [b b'] [c c'] [d d']] H HN HS HR.
  unfold radii_all, size_all in H. destruct H as ((Ha & Ha') & (Hb & Hb') & (Hc & Hc') & (Hd & Hd')).
  unfold print_radii, parse_radii.
  destruct (rect_eqb T eqb (Rect a b c d) (Rect a' b' c' d')) eqn:E; rewrite <- app_assoc.
  - destruct (rect_round ([] ++ rest) (Rect a b c d)) as [[x y z w] [E1 R1]];
      [cbn [rect_all]; auto|exact HN|]. rewrite E1. clear E1. rewrite app_nil_l.
    pose proof (rect_eqb_rel _ _ _ E R1) as R2. cbn [rect_rel] in R1, R2.
    assert (G : forall (v : option (radii T * list vtok)),
      (match rest with TkDelim "/" :: l2 => match parse_rect T parse l2 with
        | Some (Rect h0 h1 h2 h3, l3) => Some (Radii (Size2D x h0) (Size2D y h1) (Size2D z h2) (Size2D w h3), l3)
        | None => None end | _ => v end) = v).
    { intros v. destruct rest as [|t l]; [reflexivity|]. destruct t; try reflexivity.
      destruct (String.string_dec s "/") as [->|D]; [exfalso; eapply HR; reflexivity|].
      destruct s as [|ch s]; [reflexivity|]. destruct ch as [[] [] [] [] [] [] [] []]; try reflexivity.
      destruct s; [|reflexivity]. exfalso; apply D; reflexivity. }
    rewrite G. eexists; split; [reflexivity|]. cbn [radii_rel size_rel]. tauto.
  - destruct (rect_round ((TkDelim "/" :: print_rect T eqb print (Rect a' b' c' d')) ++ rest) (Rect a b c d))
      as [[x y z w] [E1 R1]]; [cbn [rect_all]; auto|apply HS|]. rewrite E1. clear E1.
    cbn [app]. destruct (rect_round rest (Rect a' b' c' d')) as [[x' y' z' w'] [E2 R2]];
      [cbn [rect_all]; auto|exact HN|]. rewrite E2.
    eexists; split; [reflexivity|]. cbn [radii_rel size_rel rect_rel] in *. tauto.
Qed.
End Rect.

(** The printed list expands to the rect and is as short as any that does *)
Lemma rect_expands : forall T (eqb : T -> T -> bool) a b c d,
    (forall x y, eqb x y = true -> x = y) ->
    four_sides (rect_components T eqb (Rect a b c d)) = Some (a, b, c, d).
Proof.
  intros T eqb a b c d H. unfold rect_components.
  destruct (eqb a c) eqn:Eac; [apply H in Eac; subst c|];
  (destruct (eqb b d) eqn:Ebd; [apply H in Ebd; subst d|]);
  (destruct (eqb a b) eqn:Eab; [apply H in Eab; subst b|]); reflexivity.
Qed.

Lemma rect_minimal : forall T (eqb : T -> T -> bool) a b c d l,
    (forall x, eqb x x = true) ->
    four_sides l = Some (a, b, c, d) -> (List.length (rect_components T eqb (Rect a b c d)) <= List.length l)%nat.
Proof.
  intros T eqb a b c d l H E. unfold rect_components.
  destruct l as [|x [|y [|z [|w [|]]]]]; try discriminate E; injection E; intros; subst;
    rewrite ?H; cbn [andb].
  all: repeat match goal with |- context [if ?e then _ else _] => destruct e end; cbn; lia.
Qed.

Lemma size_expands : forall T (eqb : T -> T -> bool) a b,
    (forall x y, eqb x y = true -> x = y) -> two_values (size2d_components T eqb (Size2D a b)) = Some (a, b).
Proof.
  intros T eqb a b H. unfold size2d_components. destruct (eqb b a) eqn:E; [apply H in E; subst|]; reflexivity.
Qed.
Lemma size_minimal : forall T (eqb : T -> T -> bool) a b l,
    (forall x, eqb x x = true) -> two_values l = Some (a, b) ->
    (List.length (size2d_components T eqb (Size2D a b)) <= List.length l)%nat.
Proof.
  intros T eqb a b l H E. unfold size2d_components.
  destruct l as [|x [|y [|]]]; try discriminate E; injection E; intros; subst; rewrite ?H;
    repeat match goal with |- context [if ?e then _ else _] => destruct e end; cbn; lia.
Qed.

(** ** Lengths *)
Lemma lp_same_refl : forall x, lp_same x x.
Proof. intros x m b. reflexivity. Qed.

Lemma parse_print_lp : forall x rest, lp_ok x = true ->
    exists y, parse_lp (print_lp x ++ rest) = Some (y, rest) /\ lp_same x y.
Proof.
  intros [q u|q|s] rest H; cbn [print_lp].
  - cbn [lp_ok] in H. apply andb_true_iff in H. destruct H as [H1 H2]. apply String.eqb_eq in H2.
    destruct (Qeq_bool q 0) eqn:E; cbn [app parse_lp].
    + apply Qeq_bool_iff in E. eexists; split; [reflexivity|]. intros m b. cbn [lp_px]. rewrite E. ring.
    + rewrite H2, H1. eexists; split; [reflexivity|]. apply lp_same_refl.
  - eexists; split; [reflexivity|]. apply lp_same_refl.
  - eexists; split; [reflexivity|]. apply lp_same_refl.
Qed.

Lemma lp_eqb_same : forall x y, lp_eqb x y = true -> lp_same x y.
Proof.
  intros [q u|q|s] [q' u'|q'|s']; cbn [lp_eqb]; intros H; try discriminate H; intros m b; cbn [lp_px].
  - apply andb_true_iff in H. destruct H as [H1 H2]. apply String.eqb_eq in H2. apply Qeq_bool_iff in H1.
    subst. rewrite H1. reflexivity.
  - apply Qeq_bool_iff in H. rewrite H. reflexivity.
  - apply String.eqb_eq in H. subst. reflexivity.
Qed.
Lemma lp_eqb_iff : forall x y z, lp_eqb x y = true -> lp_same x z <-> lp_same y z.
Proof.
  intros x y z H. apply lp_eqb_same in H. split; intros S m b.
  - rewrite <- (S m b). symmetry. apply H.
  - rewrite <- (S m b). apply H.
Qed.

Lemma vends_lp : forall rest, vends rest -> parse_lp rest = None.
Proof. intros [|[]] H; try reflexivity; destruct H. Qed.

(** ** Position *)
(** What is read back for a length *)
Definition lp_norm (x : lp) : lp :=
  match x with LpLen q u => if Qeq_bool q 0 then LpLen 0 "px" else LpLen q u | _ => x end.
Lemma pl : forall x rest, lp_ok x = true -> parse_lp (print_lp x ++ rest) = Some (lp_norm x, rest).
Proof.
  intros [q u|q|s] rest H; cbn [print_lp lp_norm]; [|reflexivity|reflexivity].
  cbn [lp_ok] in H. apply andb_true_iff in H. destruct H as [H1 H2]. apply String.eqb_eq in H2.
  destruct (Qeq_bool q 0) eqn:E; cbn [app parse_lp]; [reflexivity|]. rewrite H2, H1. reflexivity.
Qed.
Lemma norm_px : forall m b x, lp_px m b (lp_norm x) == lp_px m b x.
Proof.
  intros m b [q u|q|s]; cbn [lp_norm]; [|reflexivity|reflexivity].
  destruct (Qeq_bool q 0) eqn:E; [|reflexivity]. apply Qeq_bool_iff in E. cbn [lp_px]. rewrite E. ring.
Qed.
Lemma zero_px : forall m b x, lp_is_zero x = true -> lp_px m b x == 0.
Proof.
  intros m b [q u|q|s] H; try discriminate H; cbn [lp_is_zero] in H; apply Qeq_bool_iff in H;
    cbn [lp_px]; rewrite H; ring.
Qed.
Lemma half_px : forall m b x, match x with LpPct q => Qeq_bool q (1#2) | _ => false end = true ->
    lp_px m b x == b * (1#2).
Proof.
  intros m b [q u|q|s] H; try discriminate H. apply Qeq_bool_iff in H. cbn [lp_px]. rewrite H. ring.
Qed.
Lemma center_lp : forall x rest, parse_center (print_lp x ++ rest) = None.
Proof. intros [q u|q|s] rest; cbn [print_lp]; try destruct (Qeq_bool q 0); reflexivity. Qed.
Lemma side_lp_none : forall a x rest, parse_side a (print_lp x ++ rest) = None.
Proof. intros a [q u|q|s] rest; cbn [print_lp]; try destruct (Qeq_bool q 0); reflexivity. Qed.
Lemma vends_center : forall rest, vends rest -> parse_center rest = None.
Proof. intros [|[]] H; try reflexivity; destruct H. Qed.
Lemma vends_side : forall a rest, vends rest -> parse_side a rest = None.
Proof. intros a [|[]] H; try reflexivity; destruct H. Qed.

Lemma lp_ident : forall s l, parse_lp (TkIdent s :: l) = None.
Proof. reflexivity. Qed.
Lemma center_id : forall s l, parse_center (TkIdent s :: l) = if ieq s "center" then Some l else None.
Proof. reflexivity. Qed.
Lemma side_id : forall a s l, parse_side a (TkIdent s :: l) =
      if ieq s (side_name a SStart) then Some (SStart, l)
      else if ieq s (side_name a SEnd) then Some (SEnd, l) else None.
Proof. reflexivity. Qed.
Lemma pct_lp : forall q l, parse_lp (TkPct q :: l) = Some (LpPct q, l).
Proof. reflexivity. Qed.

Lemma pct_center : forall q l, parse_center (TkPct q :: l) = None.
Proof. reflexivity. Qed.
Lemma pct_side : forall a q l, parse_side a (TkPct q :: l) = None.
Proof. reflexivity. Qed.

Ltac keyword := repeat match goal with
  | |- context [ieq ?a ?b] => let v := eval vm_compute in (ieq a b) in change (ieq a b) with v; cbv iota
  end.

Lemma position_round : forall minify p rest, position_ok p = true -> vends rest ->
    exists p', parse_position (print_position minify p ++ rest) = Some (p', rest)
          /\ forall m w h, qpair_eq (position_px m w h p) (position_px m w h p').
Proof.
  intros minify [x y] rest OK V. cbn [position_ok] in OK. apply andb_true_iff in OK. destruct OK as [OX OY].
  pose proof (vends_lp _ V) as VL. pose proof (vends_center _ V) as VC.
  pose proof (fun a => vends_side a _ V) as VS.
  destruct minify; destruct x as [|x|[|] [x|]]; destruct y as [|y|[|] [y|]]; cbn [pcomp_ok] in OX, OY;
    unfold print_position, print_position_rest, start_len, print_pcomp, side_lp, pcomp_is_center, lp_zero;
    cbn [andb].
  all: repeat match goal with
    | |- context [if ?e then _ else _] => destruct e eqn:?
    | |- context [match ?e with true => _ | false => _ end] => destruct e eqn:?
    end.
  all: rewrite ?app_nil_r, <- ?app_assoc; cbn [app side_name]; rewrite <- ?app_assoc; cbn [app].
  all: unfold parse_position, parse_pcomp, opt_lp.
  all: repeat (first
    [ rewrite pl by assumption | rewrite pl by reflexivity | rewrite center_lp | rewrite side_lp_none
    | rewrite lp_ident | rewrite center_id | rewrite side_id | rewrite pct_lp | rewrite pct_center | rewrite pct_side
    | rewrite VL | rewrite VC | rewrite VS ]; cbn [side_name]; keyword).
  all: eexists; split; [reflexivity|]; intros m w h; split;
    cbn [position_px pcomp_px fst snd]; rewrite ?norm_px.
  all: try (rewrite ?norm_px; reflexivity).
  all: try (rewrite half_px by eassumption; cbn [lp_px]; try ring; fail).
  all: try (rewrite zero_px by eassumption; cbn [lp_px]; ring).
  all: try (cbn [lp_px]; ring).
  all: try (rewrite ?half_px by eassumption; cbn [lp_px]; ring).
  all: match goal with H : _ && _ = true |- _ => apply andb_true_iff in H; destruct H end; try discriminate.
  all: apply half_px; assumption.
Qed.

Lemma parse_lp_ok : forall l x r, parse_lp l = Some (x, r) -> lp_ok x = true.
Proof.
  intros [|[]] x r H; try discriminate H; cbn [parse_lp] in H.
  - injection H; intros; subst; reflexivity.
  - destruct (is_length_unit (lower unit)) eqn:E; [|discriminate H].
    injection H; intros; subst. cbn [lp_ok]. rewrite E, lower_idem, String.eqb_refl. reflexivity.
  - injection H; intros; subst; reflexivity.
  - injection H; intros; subst; reflexivity.
Qed.
Lemma opt_lp_ok : forall l x r, opt_lp l = (Some x, r) -> lp_ok x = true.
Proof.
  intros l x r H. unfold opt_lp in H. destruct (parse_lp l) as [[y t]|] eqn:E; inversion H; subst.
  eapply parse_lp_ok; eassumption.
Qed.
Lemma parse_pcomp_ok : forall a l c r, parse_pcomp a l = Some (c, r) -> pcomp_ok c = true.
Proof.
  intros a l c r H. unfold parse_pcomp in H.
  destruct (parse_center l); [inversion H; reflexivity|].
  destruct (parse_lp l) as [[x t]|] eqn:E; [inversion H; subst; eapply parse_lp_ok; eassumption|].
  destruct (parse_side a l) as [[s t]|]; [|discriminate H].
  destruct (opt_lp t) as [o r1] eqn:O. inversion H; subst. destruct o; [|reflexivity].
  eapply opt_lp_ok; eassumption.
Qed.
Lemma parse_position_ok : forall l p r, parse_position l = Some (p, r) -> position_ok p = true.
Proof.
  intros l p r H. unfold parse_position in H.
  destruct (parse_pcomp AxX l) as [[c l1]|] eqn:E0.
  - pose proof (parse_pcomp_ok _ _ _ _ E0) as K. destruct c as [|x|s o]; cbn [pcomp_ok] in K.
    + destruct (parse_pcomp AxY l1) as [[y l2]|] eqn:E1;
        [inversion H; subst; cbn; eapply parse_pcomp_ok; eassumption|].
      destruct (parse_pcomp AxX l1) as [[y l2]|] eqn:E2; inversion H; subst; cbn; [|reflexivity].
      rewrite andb_true_r. eapply parse_pcomp_ok; eassumption.
    + destruct (parse_side AxY l1) as [[s l2]|]; [inversion H; subst; cbn; rewrite K; reflexivity|].
      destruct (parse_lp l1) as [[y l2]|] eqn:E1;
        [inversion H; subst; cbn; rewrite K; eapply parse_lp_ok; eassumption|].
      destruct (parse_center l1); inversion H; subst; cbn; rewrite K; reflexivity.
    + destruct (parse_center l1); [inversion H; subst; cbn; rewrite andb_true_r; exact K|].
      destruct (parse_side AxY l1) as [[t l2]|].
      * destruct (opt_lp l2) as [yo l3] eqn:O. inversion H; subst. cbn. rewrite K.
        destruct yo; [eapply opt_lp_ok; eassumption|reflexivity].
      * inversion H; subst. cbn. destruct o; [exact K|reflexivity].
  - destruct (parse_side AxY l) as [[t l1]|]; [|discriminate H].
    destruct (opt_lp l1) as [yo l2] eqn:O1.
    assert (K : match yo with Some x => lp_ok x | None => true end = true)
      by (destruct yo; [eapply opt_lp_ok; eassumption|reflexivity]).
    destruct (parse_side AxX l2) as [[s l3]|].
    + destruct (opt_lp l3) as [xo l4] eqn:O2. inversion H; subst. cbn. rewrite K, andb_true_r.
      destruct xo; [eapply opt_lp_ok; eassumption|reflexivity].
    + destruct (parse_center l2); inversion H; subst; cbn; [exact K|reflexivity].
Qed.

(** ** Time *)
Lemma time_round : forall t rest, exists t',
    parse_time (print_time t ++ rest) = Some (t', rest) /\ time_ms t' == time_ms t.
Proof.
  intros [q|q] rest; cbn [print_time].
  - destruct (Qlt_bool 0 q && Qlt_bool q (1 # 10)); eexists; (split; [reflexivity|]); cbn [time_ms]; ring.
  - destruct (Qeq_bool q 0 || Qle_bool 100 q); eexists; (split; [reflexivity|]); cbn [time_ms]; field.
Qed.

(** ** Easing *)
Lemma is_bezier_iff : forall x1 y1 x2 y2 a b c d, is_bezier (CubicBezier x1 y1 x2 y2) a b c d = true ->
    x1 == a /\ y1 == b /\ x2 == c /\ y2 == d.
Proof.
  intros. cbn [is_bezier] in H. rewrite !andb_true_iff in H.
  destruct H as [[[H1 H2] H3] H4]. apply Qeq_bool_iff in H1, H2, H3, H4. auto.
Qed.

Lemma easing_round : forall e rest, exists e',
    parse_easing (print_easing e ++ rest) = Some (e', rest) /\ curve_same (easing_curve e) (easing_curve e').
Proof.
  intros e rest. destruct e as [| | | | |x1 y1 x2 y2|n p]; unfold print_easing.
  1-5: eexists; (split; [reflexivity|]); cbn; repeat split; reflexivity.
  - repeat match goal with |- context [if ?e then _ else _] => destruct e eqn:? end.
    1-4: eexists; (split; [reflexivity|]);
      match goal with H : is_bezier _ _ _ _ _ = true |- _ => apply is_bezier_iff in H; destruct H as (?&?&?&?) end;
      cbn [easing_curve curve_same]; repeat split; (eapply Qeq_trans; [eassumption|reflexivity]).
    eexists; split; [reflexivity|]. cbn. repeat split; reflexivity.
  - destruct n as [|[n|n|]|n], p; eexists; (split; [reflexivity|]); cbn; split; reflexivity.
Qed.
