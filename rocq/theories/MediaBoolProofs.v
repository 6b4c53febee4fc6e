(** Proofs about the boolean operations on media queries and the resolution prefixes. *)
From Coq Require Import List String Ascii Bool ZArith QArith Lia.
From Verif Require Import MediaModel MediaSpec MediaPrintProofs MediaShapeProofs.
Import ListNotations.
Open Scope string_scope.
Open Scope list_scope.

(** ** Equal queries have the same meaning *)
Lemma name_eqb_eq : forall a b, name_eqb a b = true -> a = b.
Proof.
  intros [f|s|s] [g|t|t] H; cbn in H; try discriminate H.
  - unfold feature_id_eqb in H. destruct (feature_id_eq_dec f g); [subst; reflexivity|discriminate H].
  - apply String.eqb_eq in H. subst; reflexivity.
  - apply String.eqb_eq in H. subst; reflexivity.
Qed.
Lemma cmp_eqb_eq : forall a b, cmp_eqb a b = true -> a = b.
Proof. intros [] []; cbn; intros H; try discriminate H; reflexivity. Qed.
Lemma operator_eqb_eq : forall a b, operator_eqb a b = true -> a = b.
Proof. intros [] []; cbn; intros H; try discriminate H; reflexivity. Qed.
Lemma mtype_eqb_eq : forall a b, mtype_eqb a b = true -> a = b.
Proof.
  intros [| | |s] [| | |t]; cbn; intros H; try discriminate H; try reflexivity.
  apply String.eqb_eq in H. subst; reflexivity.
Qed.
Lemma mtype_eqb_refl : forall a, mtype_eqb a a = true.
Proof. intros [| | |s]; try reflexivity. apply String.eqb_refl. Qed.
Lemma oqualifier_eqb_eq : forall a b, oqualifier_eqb a b = true -> a = b.
Proof. intros [[]|] [[]|]; cbn; intros H; try discriminate H; reflexivity. Qed.

Lemma value_eqb_veq : forall a b, value_eqb a b = true -> veq a b.
Proof.
  intros a b H. destruct a, b; cbn [value_eqb] in H; try discriminate H;
    repeat match goal with
           | H : (_ && _) = true |- _ => apply andb_true_iff in H; destruct H
           | H : Qeq_bool _ _ = true |- _ => apply Qeq_bool_iff in H
           | H : String.eqb _ _ = true |- _ => apply String.eqb_eq in H; subst
           | H : Z.eqb _ _ = true |- _ => apply Z.eqb_eq in H; subst
           | H : Bool.eqb _ _ = true |- _ => apply eqb_prop in H; subst
           end; try apply veq_refl; (split; [intros e|intros; split; discriminate]); cbn [den oq_eq].
  - rewrite H. reflexivity.
  - exact H.
  - destruct u, u0; try discriminate; cbn [oq_eq]; rewrite H; reflexivity.
  - match goal with H1 : ?a == ?c, H2 : ?b == ?d
                      |- context [Qeq_bool ?b 0] =>
      destruct (Qeq_bool b 0) eqn:E1, (Qeq_bool d 0) eqn:E2; cbn [oq_eq]; try exact I;
        [apply Qeq_bool_iff in E1; rewrite H2 in E1; apply Qeq_bool_iff in E1; congruence
        |apply Qeq_bool_iff in E2; rewrite <- H2 in E2; apply Qeq_bool_iff in E2; congruence
        |rewrite H1, H2; reflexivity]
    end.
Qed.

Ltac split_andb :=
  repeat match goal with H : (_ && _) = true |- _ => apply andb_true_iff in H; destruct H end.

Lemma feature_eqb_sem : forall a b, feature_eqb a b = true -> feature_sem_eq a b.
Proof.
  intros a b H e.
  destruct a as [na va|na|na oa va|na sa soa va oa], b as [nb vb|nb|nb ob vb|nb sb sob vb ob];
    cbn [feature_eqb] in H; try discriminate H; split_andb;
    repeat match goal with
           | H : name_eqb _ _ = true |- _ => apply name_eqb_eq in H; subst
           | H : cmp_eqb _ _ = true |- _ => apply cmp_eqb_eq in H; subst
           | H : value_eqb _ _ = true |- _ => apply value_eqb_veq in H
           end; destruct nb; try reflexivity; cbn [eval_feature].
  - apply eval_plain_veq; assumption.
  - apply compare_feature_veq; assumption.
  - f_equal; [apply compare_value_veq|apply compare_feature_veq]; assumption.
Qed.

Lemma cond_eqb_sem : forall a b, cond_eqb a b = true -> forall e, eval_cond e a = eval_cond e b.
Proof.
  intros a. induction a as [f|c IH|op cs IH|l] using cond_ind'; intros b H e; destruct b;
    cbn [cond_eqb] in H; try discriminate H.
  - apply feature_eqb_sem; exact H.
  - cbn [eval_cond]. rewrite (IH _ H). reflexivity.
  - apply andb_true_iff in H. destruct H as [Ho H]. apply operator_eqb_eq in Ho. subst op0.
    rewrite !eval_op. f_equal. revert cs0 H. induction IH as [|x r Hx Hr IHr]; intros [|y ds] H;
      try discriminate H; [reflexivity|].
    apply andb_true_iff in H. destruct H as [H1 H2]. cbn [map]. rewrite (Hx _ H1).
    f_equal. apply IHr; exact H2.
  - reflexivity.
Qed.

Lemma mquery_eqb_sem : forall a b, mquery_eqb a b = true -> query_sem_eq a b.
Proof.
  intros [qa ta ca] [qb tb cb] H e. unfold mquery_eqb in H. cbn [mq_qual mq_type mq_cond] in H.
  split_andb. apply oqualifier_eqb_eq in H. apply mtype_eqb_eq in H1. subst.
  unfold eval_query. cbn [mq_qual mq_type mq_cond].
  destruct ca as [ca|], cb as [cb|]; cbn [ocond_eqb] in H0; try discriminate H0; [|reflexivity].
  rewrite (cond_eqb_sem _ _ H0). reflexivity.
Qed.

Lemma contains_matches : forall l q e,
    mlist_contains l q = true -> query_matches e q = true -> existsb (query_matches e) l = true.
Proof.
  intros l q e H Hq. unfold mlist_contains in H. apply existsb_exists in H.
  destruct H as [x [Hx E]]. apply existsb_exists. exists x. split; [exact Hx|].
  unfold query_matches in *. rewrite (mquery_eqb_sem _ _ E). exact Hq.
Qed.

(** ** always / never *)
Lemma always_sound : forall l, list_always_matches l = true -> forall e, list_matches e l = true.
Proof.
  intros l H e. destruct l as [|q l]; [reflexivity|]. cbn [list_always_matches forallb] in H.
  apply andb_true_iff in H. destruct H as [H _].
  destruct q as [[] [] []]; try discriminate H. reflexivity.
Qed.

Lemma never_sound : forall l, list_never_matches l = true -> forall e, list_matches e l = false.
Proof.
  intros l H e. unfold list_never_matches in H. destruct l as [|q l]; [discriminate H|].
  unfold list_matches. destruct (existsb (query_matches e) (q :: l)) eqn:E; [|reflexivity].
  apply existsb_exists in E. destruct E as [x [Hx Mx]]. rewrite forallb_forall in H.
  specialize (H x Hx). destruct x as [[[]|] [] []]; try discriminate H. discriminate Mx.
Qed.

(** ** or *)
Lemma list_or_exists : forall b a e,
    existsb (query_matches e) (list_or a b)
    = existsb (query_matches e) a || existsb (query_matches e) b.
Proof.
  induction b as [|q b IH]; intros a e; cbn [list_or existsb]; [rewrite orb_false_r; reflexivity|].
  destruct (mlist_contains a q) eqn:E.
  - rewrite IH. destruct (query_matches e q) eqn:Eq; [|reflexivity].
    rewrite (contains_matches _ _ _ E Eq). reflexivity.
  - rewrite IH, existsb_app. cbn [existsb]. rewrite orb_false_r, orb_assoc. reflexivity.
Qed.

Lemma list_or_nonempty : forall b a, a <> [] -> list_or a b <> [].
Proof.
  induction b as [|q b IH]; intros a H; cbn [list_or]; [exact H|].
  destruct (mlist_contains a q); apply IH; [exact H|]. destruct a; discriminate.
Qed.

Lemma or_sound : forall a b e, a <> [] -> b <> [] ->
    list_matches e (list_or a b) = list_matches e a || list_matches e b.
Proof.
  intros a b e Ha Hb. unfold list_matches.
  pose proof (list_or_nonempty b a Ha) as Hn.
  destruct (list_or a b) as [|x l] eqn:E; [congruence|]. rewrite <- E, list_or_exists.
  destruct a; [congruence|]. destruct b; [congruence|]. reflexivity.
Qed.

(** ** and *)
Lemma types_disjoint : forall e t u, mtype_eqb t u = false -> t <> MAll -> u <> MAll ->
    type_matches e t = true -> type_matches e u = false.
Proof.
  intros e t u H Ht Hu M. unfold type_matches in *.
  destruct t, u, (e_device e); try congruence; cbn in H; discriminate H.
Qed.

Definition ceval (e : env) (c : option cond) : tri :=
  match c with Some c => eval_cond e c | None => Some true end.

Lemma cond_and_sem : forall e ca cb,
    ceval e (match cb with
             | None => ca
             | Some cb =>
                 match ca with
                 | None => Some cb
                 | Some ca => if cond_eqb ca cb then Some ca else Some (COp And [ca; cb])
                 end
             end) = tand (ceval e ca) (ceval e cb).
Proof.
  intros e [ca|] [cb|]; cbn [ceval]; try (rewrite ?tand_true_r; reflexivity).
  - destruct (cond_eqb ca cb) eqn:E; cbn [ceval].
    + rewrite (cond_eqb_sem _ _ E). destruct (eval_cond e cb) as [[]|]; reflexivity.
    + cbn [eval_cond map tall fold_right]. rewrite tand_true_r. reflexivity.
  - destruct (eval_cond e cb) as [[]|]; reflexivity.
Qed.

Lemma eval_query_ceval : forall e q t c,
    eval_query e (MQ q t c) =
    match q with
    | Some QNot => tnot (tand (Some (type_matches e t)) (ceval e c))
    | _ => tand (Some (type_matches e t)) (ceval e c)
    end.
Proof. intros e [[]|] t [c|]; reflexivity. Qed.

Lemma query_and_sem : forall a b r e,
    query_and a b = Some r -> and_safe a b = true ->
    eval_query e r = tand (eval_query e a) (eval_query e b).
Proof.
  intros [qa ta ca] [qb tb cb] r e H HS. unfold query_and in H. cbn [mq_qual mq_type mq_cond] in H.
  unfold and_safe in HS. cbn [mq_qual mq_type mq_cond] in HS.
  destruct (and_types (qa, ta) (qb, tb)) as [[q t]|] eqn:ET; [|discriminate H].
  pose proof (cond_and_sem e ca cb) as HC.
  match type of H with Some (MQ q t ?C) = _ => set (c := C) in *; clearbody c end.
  injection H as <-. rewrite !eval_query_ceval, HC. clear HC c.
  assert (Dis : forall t u, mtype_eqb t u = false -> t <> MAll -> u <> MAll ->
             type_matches e t && type_matches e u = false).
  { intros x y Hx H1 H2. destruct (type_matches e x) eqn:Ex; [|reflexivity].
    apply (types_disjoint e x y Hx H1 H2 Ex). }
  assert (All : type_matches e MAll = true) by (unfold type_matches; destruct (e_device e); reflexivity).
  assert (Sym : forall t u, mtype_eqb t u = mtype_eqb u t).
  { intros [| | |s1] [| | |s2]; try reflexivity. apply String.eqb_sym. }
  unfold and_types in ET.
  destruct (ceval e ca) as [[]|] eqn:Ea; destruct (ceval e cb) as [[]|] eqn:Eb.
  all: destruct ca as [ca|]; [|cbn [ceval] in Ea; try discriminate Ea].
  all: destruct cb as [cb|]; [|cbn [ceval] in Eb; try discriminate Eb].
  all: destruct qa as [[]|], qb as [[]|]; cbn [andb] in HS; try discriminate HS.
  all: destruct ta; cbn [mtype_eqb] in ET, HS; destruct tb; cbn [mtype_eqb orb negb] in ET, HS;
    try discriminate HS; try discriminate ET.
  all: try match type of ET with context [if ?b then _ else _] => destruct b eqn:Es end;
    try discriminate ET; injection ET as <- <-; rewrite ?All.
  all: cbn [orb negb andb] in HS; try discriminate HS.
  all: try (apply String.eqb_eq in Es; subst).
  all: unfold type_matches; destruct (e_device e); try reflexivity.
Qed.

Lemma map_opt_in : forall {A B} (f : A -> option B) l l', map_opt f l = Some l' ->
    Forall2 (fun x y => f x = Some y) l l'.
Proof.
  intros A B f l. induction l as [|x l IH]; intros l' H; cbn [map_opt] in H.
  - injection H as <-. constructor.
  - destruct (f x) as [y|] eqn:E; [|discriminate H].
    destruct (map_opt f l) as [ys|] eqn:E2; [|discriminate H].
    injection H as <-. constructor; [exact E|apply IH; reflexivity].
Qed.

Lemma matches_tand : forall e r a b, eval_query e r = tand (eval_query e a) (eval_query e b) ->
    query_matches e r = query_matches e a && query_matches e b.
Proof.
  intros e r a b H. unfold query_matches. rewrite H.
  destruct (eval_query e a) as [[]|], (eval_query e b) as [[]|]; reflexivity.
Qed.

Lemma and_map_matches : forall e q a l,
    map_opt (fun x => query_and x q) a = Some l -> forallb (fun x => and_safe x q) a = true ->
    existsb (query_matches e) l = existsb (query_matches e) a && query_matches e q.
Proof.
  intros e q a l H HS. apply map_opt_in in H. induction H as [|x y a l Hxy H IH]; [reflexivity|].
  cbn [forallb] in HS. apply andb_true_iff in HS. destruct HS as [H1 H2].
  cbn [existsb]. rewrite (IH H2), (matches_tand _ _ _ _ (query_and_sem _ _ _ e Hxy H1)).
  destruct (query_matches e x), (query_matches e q), (existsb (query_matches e) a); reflexivity.
Qed.

Lemma and_sound : forall a b r e,
    list_and a b = Some r -> and_safe_lists a b = true ->
    list_matches e r = list_matches e a && list_matches e b.
Proof.
  intros a b r e H HS. unfold list_and in H. destruct a as [|x a].
  - injection H as <-. reflexivity.
  - destruct b as [|y [|z b]].
    + cbn [list_and_loop] in H. injection H as <-. rewrite andb_true_r. reflexivity.
    + cbn [list_and_loop] in H.
      assert (G : mlist_contains (x :: a) y = true /\ a = [] /\ mquery_eqb x y = true \/
                  mlist_contains (x :: a) y = false /\ forallb (fun x => and_safe x y) (x :: a) = true).
      { cbn [and_safe_lists] in HS. destruct a as [|x2 a].
        - unfold mlist_contains. cbn [existsb forallb]. rewrite orb_false_r, andb_true_r.
          destruct (mquery_eqb x y); [left; auto|right; auto].
        - right. apply andb_true_iff in HS. destruct HS as [H1 H2]. apply negb_true_iff in H1. auto. }
      destruct G as [[G1 [-> G2]]|[G1 G2]]; rewrite G1 in H.
      * injection H as <-. unfold list_matches. cbn [existsb]. rewrite !orb_false_r.
        unfold query_matches. rewrite (mquery_eqb_sem _ _ G2 e).
        destruct (eval_query e y) as [[]|]; reflexivity.
      * destruct (map_opt (fun x => query_and x y) (x :: a)) as [l|] eqn:E; [|discriminate H].
        injection H as <-. pose proof (and_map_matches e y _ _ E G2) as M.
        unfold list_matches. destruct l as [|l0 l]; [exfalso; apply map_opt_in in E; inversion E|].
        rewrite M. cbn [existsb]. rewrite orb_false_r. reflexivity.
    + destruct a as [|x2 a]; discriminate HS.
Qed.

(** ** Resolution *)

(** [a] carries no more information than [b]. *)
Definition tle (a b : tri) : Prop := a = None \/ a = b.
Lemma tle_refl : forall a, tle a a. Proof. intros; right; reflexivity. Qed.
Lemma tle_trans : forall a b c, tle a b -> tle b c -> tle a c.
Proof. intros a b c [->| ->] H; [left; reflexivity|exact H]. Qed.
Lemma tle_not : forall a b, tle a b -> tle (tnot a) (tnot b).
Proof. intros a b [->| ->]; [left; reflexivity|apply tle_refl]. Qed.
Lemma tle_tand : forall a b c d, tle a b -> tle c d -> tle (tand a c) (tand b d).
Proof.
  intros a b c d [->| ->] [->| ->]; try apply tle_refl.
  - left; reflexivity.
  - destruct b as [[]|], d as [[]|]; try (left; reflexivity); right; reflexivity.
  - destruct b as [[]|], d as [[]|]; try (left; reflexivity); right; reflexivity.
Qed.
Lemma tle_tor : forall a b c d, tle a b -> tle c d -> tle (tor a c) (tor b d).
Proof.
  intros a b c d [->| ->] [->| ->]; try apply tle_refl.
  - left; reflexivity.
  - destruct b as [[]|], d as [[]|]; try (left; reflexivity); right; reflexivity.
  - destruct b as [[]|], d as [[]|]; try (left; reflexivity); right; reflexivity.
Qed.

Lemma transform_res_cond_le : forall p e c, ratio_consistent e ->
    tle (eval_cond e (transform_res_cond p c)) (eval_cond e c).
Proof.
  intros p e c He. induction c as [f|c IH|op cs IH|l] using cond_ind'; cbn [transform_res_cond].
  - assert (G : forall fid op q u, fid = WebKitDevicePixelRatio \/ fid = MozDevicePixelRatio ->
              tle (eval_cond e (CFeature (FRange (NStandard fid) op (VNumber (resolution_number q u)))))
                  (eval_cond e (CFeature (FRange (NStandard Resolution_) op (VResolution q u))))).
    { intros fid op q u Hf. cbn [eval_cond eval_feature]. unfold compare_feature.
      destruct (He fid Hf) as [->| ->]; [left; reflexivity|].
      right. destruct (e_num e Resolution_); [|reflexivity]. destruct u; reflexivity. }
    destruct f as [| |[[]| |] op v|]; try apply tle_refl; destruct v; try apply tle_refl;
      destruct p; try apply tle_refl; apply G; tauto.
  - cbn [eval_cond]. apply tle_not; exact IH.
  - rewrite !eval_op. induction IH as [|x r Hx Hr IHr]; [apply tle_refl|].
    cbn [map]. rewrite !tfold_cons. destruct op; [apply tle_tand|apply tle_tor]; assumption.
  - apply tle_refl.
Qed.

Lemma transform_res_query_le : forall p e q, ratio_consistent e ->
    tle (eval_query e (transform_res_query p q)) (eval_query e q).
Proof.
  intros p e [qu ty [c|]] He; [|apply tle_refl]. unfold transform_res_query, eval_query.
  cbn [mq_qual mq_type mq_cond option_map].
  assert (H : tle (tand (Some (type_matches e ty)) (eval_cond e (transform_res_cond p c)))
                  (tand (Some (type_matches e ty)) (eval_cond e c)))
    by (apply tle_tand; [apply tle_refl|apply transform_res_cond_le; exact He]).
  destruct qu as [[]|]; try exact H. apply tle_not; exact H.
Qed.

(** Every query is a weakening of one of the original queries. *)
Definition weakens (l0 l : mlist) : Prop :=
  forall x, In x l -> exists q, In q l0 /\ forall e, ratio_consistent e ->
                               tle (eval_query e x) (eval_query e q).

Lemma in_insert : forall {A} (x y : A) i l,
    In x (firstn i l ++ y :: skipn i l) <-> x = y \/ In x l.
Proof.
  intros A x y i l. rewrite <- (firstn_skipn i l) at 3. rewrite !in_app_iff. cbn [In]. 
  split; [intros [H|[H|H]]|intros [H|[H|H]]]; subst; auto.
Qed.

Lemma res_insert_inv : forall l0 ps q l i l' i',
    In q l -> weakens l0 l -> incl l0 l -> res_insert q ps l i = (l', i') ->
    weakens l0 l' /\ incl l0 l' /\ (List.length l' + i <= List.length l + i')%nat.
Proof.
  intros l0 ps. induction ps as [|p ps IH]; intros q l i l' i' Hq HW HI H; cbn [res_insert] in H.
  - injection H as <- <-. auto.
  - set (t := transform_res_query p q) in *.
    destruct (mlist_contains l t).
    + destruct (IH q l (S i) l' i' Hq HW HI H) as [A [B C]]. split; [exact A|]. split; [exact B|lia].
    + destruct (IH q (firstn i l ++ t :: skipn i l) (S i) l' i') as [A [B C]]; [| | |exact H|].
      * apply in_insert; right; exact Hq.
      * intros x Hx. apply in_insert in Hx. destruct Hx as [->|Hx]; [|apply HW; exact Hx].
        destruct (HW q Hq) as [q0 [H0 L0]]. exists q0. split; [exact H0|]. intros e He.
        eapply tle_trans; [apply transform_res_query_le; exact He|apply L0; exact He].
      * intros x Hx. apply in_insert. right. apply HI; exact Hx.
      * split; [exact A|]. split; [exact B|].
        assert (L : List.length (firstn i l ++ t :: skipn i l) = S (List.length l)).
        { rewrite app_length. cbn [List.length]. rewrite <- Nat.add_succ_comm. cbn.
          f_equal. rewrite <- app_length, firstn_skipn. reflexivity. }
        rewrite L in C. lia.
Qed.

Lemma res_loop_inv : forall n ps l0 l i l',
    weakens l0 l -> incl l0 l -> res_loop n ps l i = Some l' -> weakens l0 l' /\ incl l0 l'.
Proof.
  induction n as [|n IH]; intros ps l0 l i l' HW HI H; [discriminate H|]. cbn [res_loop] in H.
  destruct (nth_error l i) as [q|] eqn:E; [|injection H as <-; auto].
  destruct (res_insert q (query_prefixes ps q) l i) as [l1 i1] eqn:E1.
  destruct (res_insert_inv l0 _ _ _ _ _ _ (nth_error_In _ _ E) HW HI E1) as [A [B _]].
  eapply IH; eauto.
Qed.

Lemma res_loop_some : forall n ps l i, (List.length l < n + i)%nat -> (0 < n)%nat -> res_loop n ps l i <> None.
Proof.
  induction n as [|n IH]; intros ps l i Hn H0; [lia|]. cbn [res_loop].
  destruct (nth_error l i) as [q|] eqn:E; [|discriminate].
  assert (Hi : (i < List.length l)%nat) by (apply nth_error_Some; congruence).
  destruct (res_insert q (query_prefixes ps q) l i) as [l1 i1] eqn:E1.
  assert (L : (List.length l1 + i <= List.length l + i1)%nat).
  { eapply (res_insert_inv l); [apply (nth_error_In _ _ E)| | |exact E1].
    - intros x Hx. exists x. split; [exact Hx|]. intros; apply tle_refl.
    - apply incl_refl. }
  apply IH; lia.
Qed.

Lemma transform_resolution_sound : forall ps l,
    exists l', transform_resolution ps l = Some l' /\ incl l l' /\
          forall e, ratio_consistent e -> list_matches e l' = list_matches e l.
Proof.
  intros ps l. unfold transform_resolution.
  destruct (res_loop (S (List.length l)) ps l 0) as [l'|] eqn:E.
  2:{ exfalso. eapply (res_loop_some (S (List.length l)) ps l 0); [lia|lia|exact E]. }
  destruct (res_loop_inv _ _ l _ _ _ ltac:(intros x Hx; exists x; split; [exact Hx|intros; apply tle_refl])
              (incl_refl l) E) as [W I].
  exists l'. split; [reflexivity|]. split; [exact I|]. intros e He. unfold list_matches.
  assert (Ex : existsb (query_matches e) l' = existsb (query_matches e) l).
  { destruct (existsb (query_matches e) l) eqn:El.
    - apply existsb_exists in El. destruct El as [x [Hx Mx]]. apply existsb_exists.
      exists x. split; [apply I; exact Hx|exact Mx].
    - destruct (existsb (query_matches e) l') eqn:El'; [|reflexivity].
      apply existsb_exists in El'. destruct El' as [x [Hx Mx]].
      destruct (W x Hx) as [q [Hq Lq]]. specialize (Lq e He).
      assert (existsb (query_matches e) l = true); [|congruence].
      apply existsb_exists. exists q. split; [exact Hq|]. unfold query_matches in *.
      destruct Lq as [Lq|Lq]; rewrite Lq in Mx; [discriminate Mx|exact Mx]. }
  destruct l as [|q l]; [|destruct l' as [|q' l']; [exfalso; apply (I q); left; reflexivity|exact Ex]].
  destruct l' as [|q' l']; [reflexivity|]. exfalso. destruct (W q' (or_introl eq_refl)) as [x [[] _]].
Qed.

(** *** Which queries are added *)
Lemma skipn_app_len : forall {A} (a b : list A), skipn (List.length a) (a ++ b) = b.
Proof. intros A a b. induction a; [reflexivity|exact IHa]. Qed.
Lemma firstn_app_len : forall {A} (a b : list A), firstn (List.length a) (a ++ b) = a.
Proof. intros A a b. induction a; [reflexivity|]. cbn. rewrite IHa. reflexivity. Qed.

Lemma contains_false : forall l q, (forall x, In x l -> mquery_eqb x q = false /\ mquery_eqb q x = false) ->
    mlist_contains l q = false.
Proof.
  intros l q H. unfold mlist_contains. destruct (existsb _ l) eqn:E; [|reflexivity].
  apply existsb_exists in E. destruct E as [x [Hx E]]. destruct (H x Hx) as [A B]. congruence.
Qed.

Definition apart (l : mlist) (q : mquery) : Prop :=
  forall x, In x l -> mquery_eqb x q = false /\ mquery_eqb q x = false.

Lemma res_insert_new : forall ps q a r,
    distinct (map (fun p => transform_res_query p q) ps ++ [q]) ->
    (forall p, In p ps -> apart a (transform_res_query p q)) ->
    (forall p, In p ps -> apart r (transform_res_query p q)) ->
    res_insert q ps (a ++ q :: r) (List.length a)
    = (a ++ map (fun p => transform_res_query p q) ps ++ q :: r, (List.length a + List.length ps)%nat).
Proof.
  induction ps as [|p ps IH]; intros q a r D HA HR; cbn [res_insert map app List.length].
  - rewrite Nat.add_0_r. reflexivity.
  - cbn [map app distinct] in D. destruct D as [D1 D2].
    rewrite contains_false.
    + rewrite firstn_app_len, skipn_app_len.
      replace (a ++ transform_res_query p q :: q :: r) with ((a ++ [transform_res_query p q]) ++ q :: r)
        by (rewrite <- app_assoc; reflexivity).
      replace (S (List.length a)) with (List.length (a ++ [transform_res_query p q]))
        by (rewrite app_length; cbn; lia).
      rewrite IH.
      * f_equal; [rewrite <- app_assoc; reflexivity|rewrite app_length; cbn; lia].
      * exact D2.
      * intros p' Hp x Hx. apply in_app_iff in Hx. destruct Hx as [Hx|[<-|[]]].
        -- apply (HA p'); [right; exact Hp|exact Hx].
        -- destruct (D1 (transform_res_query p' q)) as [A B]; [|split; assumption].
           apply in_app_iff. left. apply in_map_iff. exists p'. split; [reflexivity|exact Hp].
      * intros p' Hp. apply HR. right; exact Hp.
    + intros x Hx. apply in_app_iff in Hx. destruct Hx as [Hx|[<-|Hx]].
      * apply (HA p); [left; reflexivity|exact Hx].
      * destruct (D1 q) as [A B]; [apply in_app_iff; right; left; reflexivity|split; assumption].
      * apply (HR p); [left; reflexivity|exact Hx].
Qed.

Lemma distinct_app : forall a b, distinct (a ++ b) -> distinct a /\ distinct b
    /\ forall x y, In x a -> In y b -> mquery_eqb x y = false /\ mquery_eqb y x = false.
Proof.
  induction a as [|q a IH]; intros b H; cbn [app distinct] in *; [repeat split; auto; contradiction|].
  destruct H as [H1 H2]. destruct (IH b H2) as (A & B & C). split; [split|split]; auto.
  - intros x Hx. apply H1. apply in_app_iff. left; exact Hx.
  - intros x y [<-|Hx] Hy; [apply H1, in_app_iff; right; exact Hy|apply C; assumption].
Qed.

Lemma in_variants : forall ps l x, In x l -> In x (with_variants ps l).
Proof.
  intros ps l x H. unfold with_variants. apply in_flat_map. exists x. split; [exact H|].
  apply in_app_iff. right. left. reflexivity.
Qed.

Lemma res_loop_new : forall l n ps a, (List.length l < n)%nat -> distinct (a ++ with_variants ps l) ->
    res_loop n ps (a ++ l) (List.length a) = Some (a ++ with_variants ps l).
Proof.
  induction l as [|q l IH]; intros n ps a L D; destruct n as [|n]; cbn [List.length] in L; try lia;
    cbn [res_loop].
  - rewrite app_nil_r. rewrite (proj2 (nth_error_None _ _) (le_n _)).
    unfold with_variants; cbn [flat_map]. rewrite app_nil_r. reflexivity.
  - rewrite nth_error_app2 by lia. rewrite Nat.sub_diag. cbn [nth_error].
    unfold with_variants in D. cbn [flat_map] in D. fold (with_variants ps l) in D.
    destruct (distinct_app _ _ D) as (_ & D2 & DA). rewrite <- app_assoc in D2.
    destruct (distinct_app _ _ D2) as (_ & D3 & DV).
    assert (D4 : distinct (map (fun p => transform_res_query p q) (query_prefixes ps q) ++ [q]))
      by (rewrite app_assoc in D2; apply (distinct_app _ _ D2)).
    rewrite res_insert_new.
    + replace (a ++ map (fun p => transform_res_query p q) (query_prefixes ps q) ++ q :: l)
        with ((a ++ map (fun p => transform_res_query p q) (query_prefixes ps q) ++ [q]) ++ l)
        by (rewrite <- !app_assoc; reflexivity).
      replace (S (List.length a + List.length (query_prefixes ps q)))
        with (List.length (a ++ map (fun p => transform_res_query p q) (query_prefixes ps q) ++ [q]))
        by (rewrite !app_length, map_length; cbn; lia).
      rewrite IH.
      * unfold with_variants at 2. cbn [flat_map]. fold (with_variants ps l).
        rewrite <- !app_assoc. reflexivity.
      * lia.
      * rewrite <- app_assoc. exact D.
    + exact D4.
    + intros p Hp x Hx. apply DA; [exact Hx|]. apply in_app_iff. left. apply in_app_iff. left.
      apply in_map_iff. exists p. auto.
    + intros p Hp x Hx. destruct (DV (transform_res_query p q) x) as [A B]; [| |split; assumption].
      * apply in_map_iff. exists p. auto.
      * right. apply in_variants. exact Hx.
Qed.

Lemma transform_resolution_adds : forall ps l, distinct (with_variants ps l) ->
    transform_resolution ps l = Some (with_variants ps l).
Proof. intros ps l D. apply (res_loop_new l (S (List.length l)) ps []); [lia|exact D]. Qed.

(** *** The variants work in browsers that only know the prefixed feature *)
Lemma fid_eqb_neq : forall f, feature_id_eqb f Resolution_ = false ->
    forall e r, e_num (with_resolution e r) f = e_num e f.
Proof. intros f H e r. unfold with_resolution. cbn [e_num]. rewrite H. reflexivity. Qed.

Lemma den_with : forall e r v, den (with_resolution e r) v = den e v.
Proof. intros e r v. destruct v; reflexivity. Qed.

Lemma old_browser_other : forall e r g,
    match g with
    | FRange (NStandard f) _ _ | FPlain (NStandard f) _ | FBoolean (NStandard f)
    | FInterval (NStandard f) _ _ _ _ => feature_id_eqb f Resolution_ = false
    | _ => True
    end -> eval_feature e g = eval_feature (with_resolution e r) g.
Proof.
  intros e r g H.
  destruct g as [[f| |] v|[f| |]|[f| |] op v|[f| |] s sop t eop]; try reflexivity; cbn [eval_feature];
    unfold eval_plain, eval_boolean, compare_feature, compare_value;
    rewrite ?(fid_eqb_neq f H), ?den_with; reflexivity.
Qed.

Lemma old_browser_cond : forall p f e r c, ratio_feature p = Some f -> e_num e f = Some r ->
    ranged_resolution c = true ->
    eval_cond e (transform_res_cond p c) = eval_cond (with_resolution e r) c.
Proof.
  intros p f e r c Hp He. induction c as [g|c IH|op cs IH|l] using cond_ind'; intros H;
    cbn [transform_res_cond].
  - assert (R : (exists op q u, g = FRange (NStandard Resolution_) op (VResolution q u))
      \/ (match g with
         | FRange (NStandard f) _ _ | FPlain (NStandard f) _ | FBoolean (NStandard f)
         | FInterval (NStandard f) _ _ _ _ => feature_id_eqb f Resolution_ = false
         | _ => True
         end)).
    { destruct g as [[f0| |] v|[f0| |]|[f0| |] op v|[f0| |] s sop t eop]; try (right; exact I);
        try (right; cbn [ranged_resolution] in H; apply negb_true_iff in H; exact H).
      destruct f0; try (right; reflexivity). destruct v; try discriminate H.
      left. do 3 eexists. reflexivity. }
    destruct R as [(op & q & u & ->)|R].
    + destruct p; inversion Hp; subst f; cbn [eval_cond eval_feature]; unfold compare_feature;
        rewrite den_with, He; cbn [e_num with_resolution]; change (feature_id_eqb Resolution_ Resolution_) with true;
        cbv iota; destruct u; reflexivity.
    + assert (E : transform_res_cond p (CFeature g) = CFeature g).
      { destruct g as [[f0| |] v|[f0| |]|[f0| |] op v|[f0| |] s sop t eop]; try reflexivity.
        destruct f0; try reflexivity. discriminate R. }
      cbn [transform_res_cond] in E. rewrite E. cbn [eval_cond]. apply old_browser_other. exact R.
  - cbn [eval_cond]. rewrite (IH H). reflexivity.
  - cbn [ranged_resolution] in H. rewrite !eval_op. clear - IH H.
    induction IH as [|x l Hx Hl IHl]; [reflexivity|]. cbn [forallb] in H. apply andb_true_iff in H.
    cbn [map]. rewrite !tfold_cons, (Hx (proj1 H)), (IHl (proj2 H)). reflexivity.
  - reflexivity.
Qed.

Lemma no_resolution_cond : forall e r c, has_resolution c = false -> ranged_resolution c = true ->
    eval_cond e c = eval_cond (with_resolution e r) c.
Proof.
  intros e r c. induction c as [g|c IH|op cs IH|l] using cond_ind'; intros N H.
  - cbn [eval_cond]. apply old_browser_other.
    destruct g as [[f0| |] v|[f0| |]|[f0| |] op v|[f0| |] s sop t eop]; try exact I;
      try (cbn [ranged_resolution] in H; apply negb_true_iff in H; exact H).
    destruct f0; try reflexivity. discriminate N.
  - cbn [eval_cond]. rewrite (IH N H). reflexivity.
  - cbn [ranged_resolution has_resolution] in H, N. rewrite !eval_op. clear - IH H N.
    induction IH as [|x l Hx Hl IHl]; [reflexivity|]. cbn [forallb] in H. apply andb_true_iff in H.
    apply orb_false_iff in N.
    cbn [map]. rewrite !tfold_cons, (Hx (proj1 N) (proj1 H)), (IHl (proj2 N) (proj2 H)). reflexivity.
  - reflexivity.
Qed.

Lemma old_browser : forall p f e r ps l, ratio_feature p = Some f -> e_num e f = Some r -> In p ps ->
    distinct (with_variants ps l) -> forallb ranged_query l = true ->
    list_matches (with_resolution e r) l = true ->
    exists l', transform_resolution ps l = Some l' /\ list_matches e l' = true.
Proof.
  intros p f e r ps l Hp He Hin D R M. exists (with_variants ps l).
  split; [apply transform_resolution_adds; exact D|].
  destruct l as [|q0 l0]; [reflexivity|]. set (l := q0 :: l0) in *.
  assert (M' : existsb (query_matches (with_resolution e r)) l = true) by exact M.
  apply existsb_exists in M'. destruct M' as [q [Hq Mq]].
  rewrite forallb_forall in R. specialize (R q Hq).
  assert (X : exists q', In q' (with_variants ps l) /\ query_matches e q' = true).
  { destruct q as [qu ty [c|]]; cbn [ranged_query mq_cond] in R.
    - destruct (has_resolution c) eqn:HR.
      + exists (transform_res_query p (MQ qu ty (Some c))). split.
        * unfold with_variants. apply in_flat_map. exists (MQ qu ty (Some c)). split; [exact Hq|].
          apply in_app_iff. left. apply in_map_iff. exists p. split; [reflexivity|].
          unfold query_prefixes; cbn [mq_cond]. rewrite HR. exact Hin.
        * unfold query_matches, eval_query, transform_res_query in *.
          cbn [mq_qual mq_type mq_cond option_map] in *.
          rewrite (old_browser_cond p f e r c Hp He R). exact Mq.
      + exists (MQ qu ty (Some c)). split; [apply in_variants; exact Hq|].
        unfold query_matches, eval_query in *. cbn [mq_qual mq_type mq_cond] in *.
        rewrite (no_resolution_cond e r c HR R). exact Mq.
    - exists (MQ qu ty None). split; [apply in_variants; exact Hq|exact Mq]. }
  destruct X as [q' [H1 H2]]. unfold list_matches. destruct (with_variants ps l); [destruct H1|].
  apply existsb_exists. exists q'. auto.
Qed.

Lemma variant_skipped : exists ps l q l', In q l /\ query_prefixes ps q = ps
    /\ transform_resolution ps l = Some l'
    /\ exists p, In p ps /\ forall x, In x l' -> mquery_eqb x (transform_res_query p q) = false.
Proof.
  pose (q n := MQ None MAll (Some (CFeature (FRange (NStandard Resolution_) CGe (VResolution n Dppx))))).
  exists [PWebKit], [transform_res_query PWebKit (q 2); q 2; q 3], (q 3).
  eexists. split; [right; right; left; reflexivity|]. split; [reflexivity|].
  split; [vm_compute; reflexivity|]. exists PWebKit. split; [left; reflexivity|].
  intros x H. repeat destruct H as [<-|H]; try reflexivity. destruct H.
Qed.
