(** * Printing and reading token lists *)
From Coq Require Import List Bool String Arith Lia.
From Verif Require Import MediaModel VendorPrefixModel PropertyTable DeclTextModel DeclTextSpec.
Import ListNotations.
Local Open Scope string_scope.
Local Open Scope list_scope.

Lemma tk_ind' (P : tk -> Prop) :
  (forall s, P (KWs s)) -> (forall s, P (KComment s)) -> (forall s, P (KIdent s)) -> P KColon -> P KSemi ->
  P KComma -> P KBang -> P KBad -> P KCloseCurly -> (forall s, P (KAt s)) -> (forall s, P (KOther s)) ->
  (forall f l, Forall P l -> P (KFun f l)) -> (forall b l, Forall P l -> P (KBlock b l)) -> forall t, P t.
Proof.
  intros H1 H2 H3 H4 H5 H6 H7 H8 H9 H10 H11 H12 H13. fix F 1. intros [ | | | | | | | | | | |f l|b l].
  1: apply H1. 1: apply H2. 1: apply H3. 1: apply H4. 1: apply H5. 1: apply H6. 1: apply H7. 1: apply H8. 1: apply H9. 1: apply H10. 1: apply H11.
  - apply H12. induction l as [|x r IH]; constructor; [apply F | exact IH].
  - apply H13. induction l as [|x r IH]; constructor; [apply F | exact IH].
Qed.

(** ** Gluing *)
Lemma glue_inner l : (fix go (l : list tk) : list tk := match l with [] => [] | x :: r => glue_cons (glue_tk x) (go r) end) l = glue l.
Proof. induction l as [|x r IH]; [reflexivity|]. cbn [glue]. rewrite <- IH. reflexivity. Qed.
Lemma glue_fun f l : glue_tk (KFun f l) = KFun f (glue l).
Proof. cbn [glue_tk]. rewrite glue_inner. reflexivity. Qed.
Lemma glue_block b l : glue_tk (KBlock b l) = KBlock b (glue l).
Proof. cbn [glue_tk]. rewrite glue_inner. reflexivity. Qed.

Lemma glues_shape a b a' b' : shape a = shape a' -> shape b = shape b' -> glues a b = None -> glues a' b' = None.
Proof.
  destruct a, a'; cbn [shape]; intros H; try discriminate H; clear H;
  destruct b, b'; cbn [shape]; intros H; try discriminate H; cbn [glues]; try (intros; reflexivity || discriminate);
  injection H as ->; destruct b0; intros; reflexivity || discriminate.
Qed.

Inductive loose : list tk -> Prop :=
| loose_nil : loose []
| loose_one t : loose [t]
| loose_cons t u r : glues t u = None -> loose (u :: r) -> loose (t :: u :: r).
Definition firm (t : tk) : Prop := glue_tk t = t.

Lemma glue_length l : List.length (glue l) <= List.length l.
Proof.
  induction l as [|x r IH]; [auto|]. cbn [glue List.length]. unfold glue_cons.
  destruct (glue r) as [|u q]; cbn [List.length] in *; [lia|]. destruct (glues _ u); cbn [List.length]; lia.
Qed.
Lemma glue_fixed l : glue l = l <-> Forall firm l /\ loose l.
Proof.
  induction l as [|x r IH]; [split; [repeat constructor | auto]|]. cbn [glue]. unfold glue_cons.
  pose proof (glue_length r) as L. split.
  - intros H. destruct (glue r) as [|u q] eqn:E.
    + injection H as H1 <-. split; [repeat constructor; exact H1 | constructor].
    + destruct (glues (glue_tk x) u) eqn:G.
      * apply (f_equal (@List.length tk)) in H. cbn [List.length] in *. lia.
      * injection H as H1 H2. subst r. destruct (proj1 IH eq_refl) as [F O].
        split; [constructor; assumption|]. constructor; [rewrite <- H1 at 1; exact G | exact O].
  - intros [F O]. inversion F as [|? ? F1 F2]; subst. rewrite F1. destruct r as [|u q]; [reflexivity|].
    inversion O as [| |? ? ? G O']; subst. rewrite (proj2 IH (conj F2 O')), G. reflexivity.
Qed.
Lemma loose_app l m : loose (l ++ m) -> loose l /\ loose m.
Proof.
  induction l as [|x r IH]; [split; [constructor | assumption]|]. intros H. destruct r as [|y r].
  - split; [constructor|]. destruct m; inversion H; subst; [constructor | assumption].
  - cbn [app] in *. inversion H as [| |? ? ? G O]; subst. destruct (IH O) as [H1 H2]. split; [constructor; assumption | exact H2].
Qed.
Lemma loose_join l x y m : loose (l ++ [x]) -> loose (y :: m) -> glues x y = None -> loose (l ++ x :: y :: m).
Proof.
  induction l as [|z l IH]; intros H1 H2 G; [constructor; assumption|].
  destruct l as [|z' l]; cbn [app] in *; inversion H1; subst; constructor; auto; constructor; assumption.
Qed.
Lemma loose_shapes l m : map shape l = map shape m -> loose l -> loose m.
Proof.
  revert m. induction l as [|x r IH]; intros [|y q] H O; try discriminate H; [constructor|].
  injection H as H1 H2. destruct r as [|x' r], q as [|y' q]; try discriminate H2; [constructor|].
  pose proof H2 as H3. injection H3 as H4 H5. inversion O as [| |? ? ? G O']; subst.
  constructor; [exact (glues_shape _ _ _ _ H1 H4 G) | apply IH; assumption].
Qed.

Lemma firm_glue l : Forall firm l -> Forall firm (glue l).
Proof.
  induction l as [|x r IH]; [constructor|]. intros H. inversion H as [|? ? H1 H2]; subst. cbn [glue]. rewrite H1.
  specialize (IH H2). unfold glue_cons. destruct (glue r) as [|u q]; [repeat constructor; exact H1|].
  inversion IH as [|? ? F1 F2]; subst. destruct (glues x u) eqn:G; [|constructor; assumption].
  constructor; [|exact F2]. unfold firm in *. destruct x, u; try discriminate G; cbn [glues] in G.
  - injection G as <-. reflexivity.
  - injection G as <-. reflexivity.
  - injection G as <-. rewrite glue_fun in *. congruence.
  - destruct b; try discriminate G. injection G as <-. rewrite glue_block in F1. rewrite glue_fun. congruence.
  - injection G as <-. reflexivity.
Qed.
Lemma loose_glue l : loose (glue l).
Proof.
  induction l as [|x r IH]; [constructor|]. cbn [glue]. unfold glue_cons.
  destruct (glue r) as [|u q]; [constructor|]. destruct (glues (glue_tk x) u) as [w|] eqn:G; [|constructor; assumption].
  destruct q as [|u' q]; [constructor|]. inversion IH as [| |? ? ? G' O]; subst. constructor; [|exact O].
  destruct (glue_tk x), u; try discriminate G; cbn [glues] in G; try (destruct b; try discriminate G);
    injection G as <-; destruct u'; cbn [glues] in *; try reflexivity; try discriminate G';
    destruct b; try reflexivity; discriminate G'.
Qed.
Lemma firm_all t : firm (glue_tk t).
Proof.
  unfold firm. induction t as [| | | | | | | | | | |f l IH|b l IH] using tk_ind'; try reflexivity.
  - rewrite !glue_fun. f_equal. apply glue_fixed. split; [|apply loose_glue].
    induction l as [|x r IHr]; [constructor|]. inversion IH as [|? ? H1 H2]; subst. specialize (IHr H2). cbn [glue].
    assert (E : glue_cons (glue_tk x) (glue r) = glue (glue_tk x :: glue r)).
    { cbn [glue]. rewrite H1. rewrite (proj2 (glue_fixed (glue r)) (conj IHr (loose_glue r))). reflexivity. }
    rewrite E. apply firm_glue. constructor; assumption.
  - rewrite !glue_block. f_equal. apply glue_fixed. split; [|apply loose_glue].
    induction l as [|x r IHr]; [constructor|]. inversion IH as [|? ? H1 H2]; subst. specialize (IHr H2). cbn [glue].
    assert (E : glue_cons (glue_tk x) (glue r) = glue (glue_tk x :: glue r)).
    { cbn [glue]. rewrite H1. rewrite (proj2 (glue_fixed (glue r)) (conj IHr (loose_glue r))). reflexivity. }
    rewrite E. apply firm_glue. constructor; assumption.
Qed.
Lemma glue_firm l : Forall firm (glue l).
Proof.
  induction l as [|x r IH]; [constructor|]. cbn [glue].
  assert (E : glue_cons (glue_tk x) (glue r) = glue (glue_tk x :: glue r)).
  { cbn [glue]. rewrite (firm_all x). rewrite (proj2 (glue_fixed (glue r)) (conj IH (loose_glue r))). reflexivity. }
  rewrite E. apply firm_glue. constructor; [apply firm_all | exact IH].
Qed.
Lemma glue_idem l : glue (glue l) = glue l.
Proof. apply glue_fixed. split; [apply glue_firm | apply loose_glue]. Qed.

(** ** Trimming *)
Lemma all_of_app {A} (f : tk -> option A) l m :
  all_of f (l ++ m) = match all_of f l, all_of f m with Some x, Some y => Some (x ++ y) | _, _ => None end.
Proof.
  induction l as [|x r IH]; cbn [app all_of].
  - destruct (all_of f m); reflexivity.
  - rewrite IH. destruct (f x); [|reflexivity]. destruct (all_of f r); [|reflexivity]. destruct (all_of f m); reflexivity.
Qed.
Lemma all_of_split {A} (f : tk -> option A) l a b : all_of f l = Some (a ++ b) ->
  exists x y, l = x ++ y /\ all_of f x = Some a /\ all_of f y = Some b.
Proof.
  revert l. induction a as [|v a IH]; intros l H; [exists [], l; auto|].
  destruct l as [|t r]; [discriminate|]. cbn [all_of] in H. destruct (f t) eqn:E; [|discriminate].
  destruct (all_of f r) eqn:Er; [|discriminate]. injection H as -> ->. destruct (IH r Er) as [x [y [-> [H1 H2]]]].
  exists (t :: x), y. split; [reflexivity|]. cbn [all_of]. rewrite E, H1. auto.
Qed.

(** Lists that trimming leaves alone *)
Definition clean (v : list tv) : Prop :=
  List.length v <= 1 \/ (starts_ws v = false /\ starts_ws (rev v) = false).
Lemma trim_clean v : clean v -> trim v = v.
Proof.
  unfold trim. destruct (Nat.leb_spec 2 (List.length v)); [|auto]. intros [H1|[H1 H2]]; [lia|].
  unfold drop_first. rewrite H1, H2. apply rev_involutive.
Qed.
Lemma drop_first_cut v : exists a, (a = [] \/ exists x, a = [x] /\ v_is_ws x = true) /\ v = a ++ drop_first v.
Proof.
  unfold drop_first. destruct v as [|x r]; [exists []; auto|]. cbn [starts_ws]. destruct (v_is_ws x) eqn:E.
  - exists [x]. split; [right; eauto | reflexivity].
  - exists []. auto.
Qed.
Lemma trim_cut v : exists a c, v = a ++ trim v ++ c.
Proof.
  unfold trim. destruct (Nat.leb 2 _); [|exists [], []; cbn [app]; rewrite app_nil_r; reflexivity].
  destruct (drop_first_cut v) as [a [_ H]]. destruct (drop_first_cut (rev (drop_first v))) as [c [_ H']].
  exists a, (rev c). rewrite <- rev_app_distr, <- H', rev_involutive. exact H.
Qed.
(** No two whitespaces beside each other *)
Inductive spaced : list tv -> Prop :=
| spaced_nil : spaced []
| spaced_one v : spaced [v]
| spaced_cons v w r : v_is_ws v && v_is_ws w = false -> spaced (w :: r) -> spaced (v :: w :: r).
Lemma spaced_last v x y r : spaced (r ++ [x; y]) -> v = r ++ [x; y] -> v_is_ws x && v_is_ws y = false.
Proof.
  intros H _. induction r as [|z r IH]; cbn [app] in H.
  - inversion H; assumption.
  - apply IH. destruct r as [|z' r]; cbn [app] in *; inversion H; assumption.
Qed.
Lemma trim_is_clean v : spaced v -> clean (trim v).
Proof.
  intros S. unfold trim. destruct (Nat.leb_spec 2 (List.length v)) as [L|L]; [|left; lia].
  assert (H1 : starts_ws (drop_first v) = false).
  { unfold drop_first. destruct v as [|x [|y r]]; cbn [List.length] in L; try lia. cbn [starts_ws tl].
    inversion S as [| |? ? ? H _]; subst. destruct (v_is_ws x) eqn:E; [cbn [andb] in H; exact H | exact E]. }
  set (u := drop_first v) in *.
  assert (Hu : u <> []).
  { subst u. unfold drop_first. destruct v as [|x [|y r]]; cbn [List.length] in L; try lia. cbn [starts_ws tl]. destruct (v_is_ws x); discriminate. }
  assert (H2 : exists p, v = p ++ u).
  { destruct (drop_first_cut v) as [a [_ H]]. exists a. exact H. }
  destruct H2 as [p Hp].
  destruct (rev u) as [|y r] eqn:Er; [exfalso; apply Hu; rewrite <- (rev_involutive u), Er; reflexivity|].
  unfold drop_first. cbn [starts_ws tl].
  destruct (v_is_ws y) eqn:Ey.
  - assert (Eu : u = rev r ++ [y]) by (rewrite <- (rev_involutive u), Er; reflexivity).
    destruct r as [|x r]; [left; cbn; lia|]. right. rewrite rev_involutive. split.
    + rewrite Eu in H1. cbn [rev] in *. destruct (rev r ++ [x]) as [|z q] eqn:E; [apply app_eq_nil in E; destruct E as [_ E]; discriminate E|]. cbn [app starts_ws] in H1 |- *. exact H1.
    + cbn [starts_ws]. rewrite Eu in Hp. cbn [rev] in Hp. rewrite <- app_assoc in Hp. cbn [app] in Hp. rewrite app_assoc in Hp.
      rewrite Hp in S. pose proof (spaced_last _ x y (p ++ rev r) S eq_refl) as H. rewrite Ey, andb_true_r in H. exact H.
  - right. rewrite <- Er, rev_involutive. split; [exact H1|]. rewrite Er. exact Ey.
Qed.
Lemma clean_first v : clean v -> v <> [] -> starts_ws v = false -> starts_ws (rev v) = false.
Proof.
  intros [H|[_ H]] Hn Hs; [|exact H]. destruct v as [|x [|y r]]; [congruence | exact Hs | cbn in H; lia].
Qed.
(** Whitespace around a list without whitespace at its ends is trimmed *)
Lemma trim_pad a v c : v <> [] -> starts_ws v = false -> starts_ws (rev v) = false ->
  (a = [] \/ exists x, a = [x] /\ v_is_ws x = true) -> (c = [] \/ exists x, c = [x] /\ v_is_ws x = true) ->
  trim (a ++ v ++ c) = v.
Proof.
  intros Hn H1 H2 Ha Hc.
  assert (Hd : drop_first (a ++ v ++ c) = v ++ c).
  { unfold drop_first. destruct Ha as [-> |[x [-> Hx]]]; cbn [app].
    - destruct v as [|y r]; [congruence|]. cbn [app starts_ws] in *. rewrite H1. reflexivity.
    - cbn [starts_ws tl]. rewrite Hx. reflexivity. }
  assert (Hr : drop_first (rev (v ++ c)) = rev v).
  { unfold drop_first. rewrite rev_app_distr. destruct Hc as [-> |[x [-> Hx]]]; cbn [rev app].
    - rewrite H2. reflexivity.
    - cbn [starts_ws tl]. rewrite Hx. reflexivity. }
  unfold trim. destruct (Nat.leb_spec 2 (List.length (a ++ v ++ c))) as [L|L].
  - rewrite Hd, Hr. apply rev_involutive.
  - rewrite !app_length in L. destruct v as [|y v]; [congruence|]. cbn [List.length] in L.
    destruct a; [|cbn in L; lia]. destruct c; [|cbn in L; lia]. destruct v; [reflexivity | cbn in L; lia].
Qed.

(** ** Token lists *)
Definition img (m : bool) (v : tv) : tv := if m then spaces v else v.
Definition okv (m : bool) (v : tv) : bool := if m then no_comment v else full v.
Lemma map_img_false l : map (img false) l = l.
Proof. induction l as [|x r IH]; [reflexivity|]. cbn [map img]. rewrite IH. reflexivity. Qed.
Lemma img_ws m v : v_is_ws (img m v) = v_is_ws v.
Proof.
  destruct m; [|reflexivity]. destruct v as [t|f n [l|]|f l|b l]; try reflexivity. destruct t; reflexivity.
Qed.
Lemma starts_img m l : starts_ws (map (img m) l) = starts_ws l.
Proof. destruct l; [reflexivity | apply img_ws]. Qed.
Lemma clean_img m l : clean l -> clean (map (img m) l).
Proof.
  unfold clean. rewrite map_length, <- map_rev, !starts_img. auto.
Qed.

Lemma parse_ws d t v : parse_tk d t = Some v -> v_is_ws v = true <-> exists s, t = KWs s.
Proof.
  intros H. destruct t; cbn [parse_tk is_bad] in H; try discriminate H;
    try (injection H as <-; cbn [v_is_ws]; split; [discriminate | intros [x X]; discriminate X]).
  - injection H as <-. split; [eauto | reflexivity].
  - split; [|intros [x X]; discriminate X]. intros W. destruct (all_of _ body); [|discriminate H].
    assert (R : forall f b, ref_of f b l = Some v -> v_is_ws v = false).
    { intros f b R. unfold ref_of in R. destruct (v_skip l) as [|[[]| | |] r]; try discriminate R.
      destruct (String.eqb f "var" && negb (dashed s)); [discriminate R|].
      destruct (v_skip r) as [|[[]| | |] r']; try discriminate R; [injection R as <-; reflexivity|].
      destruct b; [discriminate R | injection R as <-; reflexivity]. }
    destruct (String.eqb name "var"); [rewrite (R _ _ H) in W; discriminate W|].
    destruct (String.eqb name "env"); [rewrite (R _ _ H) in W; discriminate W|].
    destruct (deep (S d)); [discriminate H|]. injection H as <-. discriminate W.
  - split; [|intros [x X]; discriminate X]. intros W. destruct (all_of _ body); [|discriminate H].
    destruct (deep (S d)); [discriminate H|]. injection H as <-. discriminate W.
Qed.
Lemma loose_spaced d l vs : loose l -> all_of (parse_tk d) l = Some vs -> spaced vs.
Proof.
  intros O. revert vs. induction O as [|t|t u r G O IH]; intros vs H; cbn [all_of] in H.
  - injection H as <-. constructor.
  - destruct (parse_tk d t); [|discriminate]. injection H as <-. constructor.
  - destruct (parse_tk d t) as [v|] eqn:Ev; [|discriminate]. cbn [all_of] in IH.
    destruct (parse_tk d u) as [w|] eqn:Ew; [|discriminate]. destruct (all_of (parse_tk d) r) as [q|]; [|discriminate].
    injection H as <-. constructor; [|apply IH; reflexivity].
    destruct (v_is_ws v) eqn:E1; [|reflexivity]. destruct (v_is_ws w) eqn:E2; [|reflexivity].
    apply (parse_ws d t v Ev) in E1. apply (parse_ws d u w Ew) in E2. destruct E1 as [s ->], E2 as [s' ->]. discriminate G.
Qed.

(** What printing a parsed token gives *)
Definition again (m : bool) (d : nat) (t : tk) (v : tv) : Prop :=
  exists u, print_tv m v = [u] /\ parse_tk d u = Some (img m v) /\ firm u /\ shape u = shape t.
Definition agains (m : bool) (d : nat) (l : list tk) (vs : list tv) : Prop :=
  exists us, print_tl m vs = us /\ all_of (parse_tk d) us = Some (map (img m) vs) /\ Forall firm us
             /\ map shape us = map shape l.
Lemma agains_of m d l : Forall (fun t => forall d v, parse_tk d t = Some v -> firm t -> okv m v = true -> again m d t v) l ->
  forall vs, all_of (parse_tk d) l = Some vs -> Forall firm l -> forallb (okv m) vs = true -> agains m d l vs.
Proof.
  induction 1 as [|t r Ht Hr IH]; intros vs H F K; cbn [all_of] in H.
  - injection H as <-. exists []. repeat split; constructor.
  - destruct (parse_tk d t) as [v|] eqn:Ev; [|discriminate]. destruct (all_of (parse_tk d) r) as [q|] eqn:Er; [|discriminate].
    injection H as <-. cbn [forallb] in K. apply andb_true_iff in K. destruct K as [K1 K2]. inversion F as [|? ? F1 F2]; subst.
    destruct (Ht d v Ev F1 K1) as [u [U1 [U2 [U3 U4]]]]. destruct (IH q eq_refl F2 K2) as [us [W1 [W2 [W3 W4]]]].
    exists (u :: us). unfold print_tl in *. cbn [flat_map all_of map]. rewrite U1, W1, U2, W2, U4, W4. repeat split. constructor; assumption.
Qed.
Lemma agains_loose m d l vs us : agains m d l vs -> print_tl m vs = us -> loose l -> loose us.
Proof. intros [x [<- [_ [_ H]]]] <- O. apply (loose_shapes l); [symmetry; exact H | exact O]. Qed.

(** A part of a parsed list *)
Lemma part d l a v c : all_of (parse_tk d) l = Some (a ++ v ++ c) -> Forall firm l -> loose l ->
  exists l', all_of (parse_tk d) l' = Some v /\ Forall firm l' /\ loose l' /\ incl l' l.
Proof.
  intros H F O. destruct (all_of_split _ _ _ _ H) as [x [y [-> [H1 H2]]]].
  destruct (all_of_split _ _ _ _ H2) as [l' [z [-> [H3 H4]]]]. exists l'. split; [exact H3|].
  apply Forall_app in F. destruct F as [_ F]. apply Forall_app in F. destruct F as [F _]. split; [exact F|].
  apply loose_app in O. destruct O as [_ O]. apply loose_app in O. split; [tauto|].
  intros t Ht. apply in_or_app. right. apply in_or_app. left. exact Ht.
Qed.
Lemma v_skip_cut l : exists a, l = a ++ v_skip l.
Proof.
  induction l as [|v r IH]; [exists []; reflexivity|]. cbn [v_skip]. destruct v as [t| | |]; try (exists []; reflexivity).
  destruct (is_blank t); [|exists []; reflexivity]. destruct IH as [a H]. exists (VTok t :: a). cbn [app]. rewrite <- H. reflexivity.
Qed.

Lemma inner_list m d l : Forall (fun t => forall d v, parse_tk d t = Some v -> firm t -> okv m v = true -> again m d t v) l ->
  forall a v c, all_of (parse_tk d) l = Some (a ++ v ++ c) -> Forall firm l -> loose l -> forallb (okv m) v = true ->
  exists us, print_tl m v = us /\ all_of (parse_tk d) us = Some (map (img m) v) /\ Forall firm us /\ loose us /\ spaced v.
Proof.
  intros IH a v c H F O K. destruct (part d l a v c H F O) as [l' [H1 [H2 [H3 H4]]]].
  assert (IH' : Forall (fun t => forall d v, parse_tk d t = Some v -> firm t -> okv m v = true -> again m d t v) l').
  { apply Forall_forall. intros t Ht. rewrite Forall_forall in IH. apply IH. apply H4. exact Ht. }
  pose proof (agains_of m d l' IH' v H1 H2 K) as A. pose proof A as A'. destruct A as [us [U1 [U2 [U3 U4]]]].
  exists us. split; [exact U1|]. split; [exact U2|]. split; [exact U3|].
  split; [apply (agains_loose m d l' v us A' U1 H3) | apply (loose_spaced d l'); assumption].
Qed.

Lemma okv_fun m f l : okv m (VFun f l) = true -> forallb (okv m) l = true.
Proof. destruct m; exact (fun H => H). Qed.
Lemma okv_block m b l : okv m (VBlock b l) = true -> forallb (okv m) l = true.
Proof. destruct m; exact (fun H => H). Qed.
Lemma okv_ref m f n l : okv m (VRef f n (Some l)) = true -> forallb (okv m) l = true /\ (m = false -> l <> []).
Proof. destruct m; intros H; [split; [exact H | discriminate]|]. destruct l; [discriminate H|]. split; [exact H | discriminate]. Qed.
Lemma img_ref m f n l : img m (VRef f n (Some l)) = VRef f n (Some (map (img m) l)).
Proof. destruct m; cbn [img spaces]; [reflexivity | rewrite map_img_false; reflexivity]. Qed.
Lemma img_fun m f l : img m (VFun f l) = VFun f (map (img m) l).
Proof. destruct m; cbn [img spaces]; [reflexivity | rewrite map_img_false; reflexivity]. Qed.
Lemma img_block m b l : img m (VBlock b l) = VBlock b (map (img m) l).
Proof. destruct m; cbn [img spaces]; [reflexivity | rewrite map_img_false; reflexivity]. Qed.

Lemma ws_shape (m : bool) : ws m = [] \/ ws m = [KWs " "].
Proof. destruct m; auto. Qed.
Lemma loose_front t l : loose l -> (forall u r, l = u :: r -> glues t u = None) -> loose (t :: l).
Proof. intros H G. destruct l as [|u r]; constructor; [exact (G u r eq_refl) | exact H]. Qed.

(** The head of a printed list is whitespace only if the list starts with whitespace *)
Lemma head_ws m d v us : all_of (parse_tk d) us = Some (map (img m) v) -> starts_ws v = false ->
  forall u r, us = u :: r -> forall s, glues (KWs s) u = None.
Proof.
  intros H Hs u r -> s. cbn [all_of] in H. destruct (parse_tk d u) as [x|] eqn:E; [|discriminate].
  destruct (all_of (parse_tk d) r) as [q|]; [|discriminate]. destruct v as [|y v]; [discriminate|]. injection H as -> _.
  cbn [starts_ws] in Hs. destruct u; try reflexivity. cbn [parse_tk is_bad] in E. injection E as E.
  rewrite <- (img_ws m), <- E in Hs. discriminate Hs.
Qed.


Lemma ref_again m d f deepf l vs v :
  f = "var" \/ f = "env" ->
  Forall (fun t => forall d v, parse_tk d t = Some v -> firm t -> okv m v = true -> again m d t v) l ->
  all_of (parse_tk d) l = Some vs -> Forall firm l -> loose l -> ref_of f deepf vs = Some v -> okv m v = true ->
  exists us, print_tv m v = [KFun f us] /\ (exists ws', all_of (parse_tk d) us = Some ws' /\ ref_of f deepf ws' = Some (img m v))
    /\ Forall firm us /\ loose us.
Proof.
  intros Hf IH H F O R K. unfold ref_of in R.
  destruct (v_skip_cut vs) as [a Ha]. destruct (v_skip vs) as [|x r] eqn:E1; [discriminate R|].
  destruct x as [t| | |]; try discriminate R. destruct t as [| |n| | | | | | | | | |]; try discriminate R.
  destruct (String.eqb f "var" && negb (dashed n)) eqn:Ed; [discriminate R|].
  destruct (v_skip_cut r) as [a' Ha']. destruct (v_skip r) as [|y r'] eqn:E2.
  - injection R as <-. exists [KIdent n]. split; [destruct m; reflexivity|]. split; [|repeat constructor].
    exists [VTok (KIdent n)]. split; [reflexivity|]. unfold ref_of. cbn [v_skip is_blank]. rewrite Ed. destruct m; reflexivity.
  - destruct y as [t| | |]; try discriminate R. destruct t; try discriminate R.
    destruct deepf; [discriminate R|]. injection R as <-. apply okv_ref in K. destruct K as [K1 K2].
    destruct (trim_cut r') as [a'' [c Hc]]. set (v := trim r') in *.
    assert (E : vs = (a ++ [VTok (KIdent n)] ++ a' ++ [VTok KComma] ++ a'') ++ v ++ c).
    { rewrite Ha, Ha', Hc. fold v. repeat (rewrite <- app_assoc; cbn [app]). reflexivity. }
    assert (Sp : spaced r').
    { pose proof H as H'. rewrite Ha, Ha' in H'. replace (a ++ VTok (KIdent n) :: a' ++ VTok KComma :: r') with
        ((a ++ [VTok (KIdent n)] ++ a' ++ [VTok KComma]) ++ r' ++ []) in H' by (rewrite app_nil_r; repeat (rewrite <- app_assoc; cbn [app]); reflexivity).
      destruct (part d l _ _ _ H' F O) as [l' [P1 [P2 [P3 _]]]]. exact (loose_spaced d l' r' P3 P1). }
    rewrite E in H. destruct (inner_list m d l IH _ v c H F O K1) as [us [U1 [U2 [U3 [U4 _]]]]].
    assert (C : clean v) by (apply trim_is_clean; exact Sp).
    exists (KIdent n :: KComma :: (if starts_ws v then [] else ws m) ++ us).
    split; [cbn [print_tv]; unfold print_tl in U1; rewrite U1; reflexivity|].
    split; [|split].
    + set (w := if starts_ws v then [] else ws m).
      exists (VTok (KIdent n) :: VTok KComma :: map (fun _ => VTok (KWs " ")) w ++ map (img m) v). split.
      * cbn [all_of parse_tk is_bad]. rewrite all_of_app, U2.
        assert (Ew : all_of (parse_tk d) w = Some (map (fun _ => VTok (KWs " ")) w)).
        { subst w. destruct (starts_ws v); [reflexivity|]. destruct m; reflexivity. }
        rewrite Ew. reflexivity.
      * unfold ref_of. cbn [v_skip is_blank]. rewrite Ed, img_ref. do 3 f_equal.
        subst w. destruct (starts_ws v) eqn:Es.
        -- cbn [map app]. apply trim_clean, clean_img. exact C.
        -- destruct m.
           ++ cbn [ws map app]. apply trim_clean, (clean_img true). exact C.
           ++ cbn [ws map app]. rewrite map_img_false. specialize (K2 eq_refl).
              replace (VTok (KWs " ") :: v) with ([VTok (KWs " ")] ++ v ++ []) by (rewrite app_nil_r; reflexivity).
              apply trim_pad; auto; [apply clean_first; assumption | right; exists (VTok (KWs " ")); auto].
    + constructor; [reflexivity|]. constructor; [reflexivity|]. apply Forall_app. split; [|exact U3].
      destruct (starts_ws v); [constructor|]. destruct m; repeat constructor.
    + constructor; [reflexivity|]. destruct (starts_ws v) eqn:Es; cbn [app].
      * apply loose_front; [exact U4 | intros u r0 _; reflexivity].
      * destruct m; cbn [ws app]; (apply loose_front; [|intros u r0 _; reflexivity]).
        -- exact U4.
        -- apply loose_front; [exact U4|]. intros u r0 Eu. exact (head_ws false d v us U2 Es u r0 Eu " ").
Qed.

Lemma printed_again m t : forall d v, parse_tk d t = Some v -> firm t -> okv m v = true -> again m d t v.
Proof.
  induction t as [s|s|s| | | | | | |s|s|f l IH|b l IH] using tk_ind'; intros d v H F K.
  all: try (cbn [parse_tk is_bad] in H; first [discriminate H | injection H as <-];
            destruct m; try discriminate K; (eexists; split; [reflexivity | repeat split]; reflexivity)).
  - unfold firm in F. rewrite glue_fun in F. injection F as F. apply glue_fixed in F. destruct F as [F O].
    cbn [parse_tk] in H. destruct (all_of (parse_tk (S d)) l) as [vs|] eqn:E; [|discriminate H].
    destruct (String.eqb f "var") eqn:Ef; [|destruct (String.eqb f "env") eqn:Ef'].
    + destruct (ref_again m (S d) f _ l vs v (or_introl (proj1 (String.eqb_eq _ _) Ef)) IH E F O H K) as [us [U1 [[ws' [U2 U2']] [U3 U4]]]].
      exists (KFun f us). split; [exact U1|]. split; [cbn [parse_tk]; rewrite U2, Ef; exact U2'|].
      split; [|reflexivity]. unfold firm. rewrite glue_fun. f_equal. apply glue_fixed. auto.
    + destruct (ref_again m (S d) f _ l vs v (or_intror (proj1 (String.eqb_eq _ _) Ef')) IH E F O H K) as [us [U1 [[ws' [U2 U2']] [U3 U4]]]].
      exists (KFun f us). split; [exact U1|]. split; [cbn [parse_tk]; rewrite U2, Ef, Ef'; exact U2'|].
      split; [|reflexivity]. unfold firm. rewrite glue_fun. f_equal. apply glue_fixed. auto.
    + destruct (deep (S d)) eqn:D; [discriminate H|]. injection H as <-. apply okv_fun in K.
      destruct (trim_cut vs) as [a [c Hc]]. pose proof E as E'. rewrite Hc in E'.
      destruct (inner_list m (S d) l IH a (trim vs) c E' F O K) as [us [U1 [U2 [U3 [U4 _]]]]].
      exists (KFun f us). split; [cbn [print_tv]; unfold print_tl in U1; rewrite U1; reflexivity|]. split.
      * cbn [parse_tk]. rewrite U2, Ef, Ef', D, img_fun. do 2 f_equal. apply trim_clean, clean_img, trim_is_clean.
        exact (loose_spaced (S d) l vs O E).
      * split; [|reflexivity]. unfold firm. rewrite glue_fun. f_equal. apply glue_fixed. auto.
  - unfold firm in F. rewrite glue_block in F. injection F as F. apply glue_fixed in F. destruct F as [F O].
    cbn [parse_tk] in H. destruct (all_of (parse_tk (S d)) l) as [vs|] eqn:E; [|discriminate H].
    destruct (deep (S d)) eqn:D; [discriminate H|]. injection H as <-. apply okv_block in K.
    pose proof E as E'. replace vs with ([] ++ vs ++ []) in E' by (rewrite app_nil_r; reflexivity).
    destruct (inner_list m (S d) l IH [] vs [] E' F O K) as [us [U1 [U2 [U3 [U4 _]]]]].
    exists (KBlock b us). split; [cbn [print_tv]; unfold print_tl in U1; rewrite U1; reflexivity|]. split.
    + cbn [parse_tk]. rewrite U2, D, img_block. reflexivity.
    + split; [|reflexivity]. unfold firm. rewrite glue_block. f_equal. apply glue_fixed. auto.
Qed.
