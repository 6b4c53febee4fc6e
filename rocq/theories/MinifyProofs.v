(** * The minifier keeps the meaning of tidy sheets *)
From Coq Require Import List Bool String PeanoNat NArith Lia.
From Verif Require Import MinifyModel MinifySpec MinifyTree.
Import ListNotations.
Local Open Scope list_scope.

(** ** Tidy lists *)
Lemma tidy_all : forall l pl,
  (fix all (pl : place) (l : list rule) {struct l} : Prop := match l with [] => True | r :: l' => tidy pl r /\ all pl l' end) pl l
  <-> Forall (tidy pl) l.
Proof.
  induction l as [|r l IH]; intros pl; [split; [constructor | intros _; exact I]|]. split.
  - intros [A B]. constructor; [exact A | apply IH; exact B].
  - intros H. split; [exact (Forall_inv H) | apply IH; exact (Forall_inv_tail H)].
Qed.
Lemma all_tidy_Forall pl l : all_tidy pl l <-> Forall (tidy pl) l.
Proof.
  induction l as [|r l IH]; [split; [constructor | intros _; exact I]|]. split.
  - intros [A B]. constructor; [exact A | apply IH; exact B].
  - intros H. split; [exact (Forall_inv H) | apply IH; exact (Forall_inv_tail H)].
Qed.
Definition inner (pl : place) : place := match pl with InStyle => InStyle | _ => InCond end.
Lemma tidy_Style pl s l : tidy pl (Style s l) <-> sels s <> [] /\ plain_vp (vpx s) /\ Forall (tidy InStyle) l.
Proof. cbn [tidy]. rewrite tidy_all. reflexivity. Qed.
Lemma tidy_Cond pl q l : tidy pl (Cond q l) <-> Forall (tidy (inner pl)) l.
Proof. cbn [tidy]. apply tidy_all. Qed.
Lemma tidy_Wrap pl k l : tidy pl (Wrap k l) <-> Forall (tidy (inner pl)) l.
Proof. cbn [tidy]. apply tidy_all. Qed.
Lemma tidy_LayerB pl n l : tidy pl (LayerB (Some n) l) <-> pl = Outer /\ (exists x, n = [x]) /\ Forall (tidy Outer) l.
Proof. cbn [tidy]. rewrite tidy_all. reflexivity. Qed.
Lemma tidy_LayerN pl l : tidy pl (LayerB None l) <-> pl = Outer /\ Forall (tidy Outer) l.
Proof. cbn [tidy]. rewrite tidy_all. reflexivity. Qed.

Lemma tidy_named : forall r pl, tidy pl r -> named r.
Proof.
  intros r. induction r as [st l IH|b|q l IH|k l IH|n l IH|n|n p b|n b|n b|n|] using rule_ind'; intros pl H;
    try exact I.
  - apply tidy_Style in H. destruct H as (_ & _ & H). cbn [named]. apply named_all. rewrite Forall_forall in *. eauto.
  - apply tidy_Cond in H. cbn [named]. apply named_all. rewrite Forall_forall in *. eauto.
  - apply tidy_Wrap in H. cbn [named]. apply named_all. rewrite Forall_forall in *. eauto.
  - destruct n as [n|].
    + apply tidy_LayerB in H. destruct H as (_ & (x & ->) & H). cbn [named]. split; [discriminate|]. apply named_all.
      rewrite Forall_forall in *. eauto.
    + apply tidy_LayerN in H. destruct H as (_ & H). cbn [named]. apply named_all. rewrite Forall_forall in *. eauto.
  - destruct H as (_ & H). cbn [named]. rewrite Forall_forall in *. intros x Hx. destruct (H x Hx) as (y & ->). discriminate.
  - destruct H.
Qed.
Lemma tidy_named_all pl l : Forall (tidy pl) l -> Forall named l.
Proof. intros H. rewrite Forall_forall in *. intros r Hr. exact (tidy_named r pl (H r Hr)). Qed.

(** A rule that does not touch the layers. *)
Definition quiet (r : rule) : Prop := match r with LayerB _ _ | LayerS _ | Import _ _ => False | _ => True end.

Section Quiet.
Variable w : world.
Lemma inner_quiet : forall r pl, pl <> Outer -> tidy pl r -> forall ctx s, sub1 w ctx r s = s.
Proof.
  intros r. induction r as [st l IH|b|q l IH|k l IH|n l IH|n|n p b|n b|n b|n|] using rule_ind'; intros pl HP H ctx s; unfold sub1;
    try reflexivity.
  - apply tidy_Style in H. destruct H as (_ & _ & H). rewrite add_Style.
    assert (Q : forall ctx o s, sub_part (adds w ctx l (Node o s)) = s).
    { intros ctx' o s'. rewrite (adds_node w) by exact (tidy_named_all _ _ H). cbn [sub_part]. clear o.
      revert s'. induction IH as [|r l Hr IHl IHl']; intros s'; [reflexivity|].
      unfold subl. cbn [adds]. rewrite (add_node w) by exact (tidy_named _ _ (Forall_inv H)). cbn [app].
      rewrite (Hr InStyle) by (discriminate || exact (Forall_inv H)).
      rewrite (adds_node w) by exact (tidy_named_all _ _ (Forall_inv_tail H)). cbn [sub_part].
      apply (IHl' (Forall_inv_tail H)). }
    set (o := @nil event). clearbody o. revert o s.
    induction (printings (vpx st)) as [|p ps IHp]; intros o s; cbn [fold_left]; [reflexivity|]. cbn [say].
    specialize (Q (FStyle p (sels st) :: ctx) (o ++ block_events (list_spec w p ctx (sels st)) (blk st)) s).
    destruct (adds w (FStyle p (sels st) :: ctx) l (Node (o ++ block_events (list_spec w p ctx (sels st)) (blk st)) s)) as [o' s'].
    cbn [sub_part] in Q. subst s'. apply IHp.
  - apply tidy_Cond in H. rewrite add_Cond. destruct (holds w q); [|reflexivity].
    assert (HP' : inner pl <> Outer) by (destruct pl; discriminate).
    rewrite (adds_node w) by exact (tidy_named_all _ _ H). cbn [sub_part].
    revert s. induction IH as [|r l Hr IHl IHl']; intros s; [reflexivity|].
    unfold subl. cbn [adds]. rewrite (add_node w) by exact (tidy_named _ _ (Forall_inv H)). cbn [app].
    rewrite (Hr (inner pl) HP' (Forall_inv H)).
    rewrite (adds_node w) by exact (tidy_named_all _ _ (Forall_inv_tail H)). cbn [sub_part].
    apply (IHl' (Forall_inv_tail H)).
  - apply tidy_Wrap in H. rewrite add_Wrap.
    assert (HP' : inner pl <> Outer) by (destruct pl; discriminate).
    rewrite (adds_node w) by exact (tidy_named_all _ _ H). cbn [sub_part].
    revert s. induction IH as [|r l Hr IHl IHl']; intros s; [reflexivity|].
    unfold subl. cbn [adds]. rewrite (add_node w) by exact (tidy_named _ _ (Forall_inv H)). cbn [app].
    rewrite (Hr (inner pl) HP' (Forall_inv H)).
    rewrite (adds_node w) by exact (tidy_named_all _ _ (Forall_inv_tail H)). cbn [sub_part].
    apply (IHl' (Forall_inv_tail H)).
  - destruct n; [apply tidy_LayerB in H | apply tidy_LayerN in H]; destruct H as (E & _); contradiction.
  - destruct H as (E & _). contradiction.
  - destruct H.
Qed.
Lemma quiet_inner_all l pl ctx s : pl <> Outer -> Forall (tidy pl) l -> subl w ctx l s = s.
Proof.
  intros HP. induction l as [|r l IH]; intros H; [reflexivity|]. change (r :: l) with ([r] ++ l).
  rewrite subl_app by (eapply tidy_named_all; try (constructor; [exact (Forall_inv H) | constructor]); exact (Forall_inv_tail H)).
  rewrite subl_one, (inner_quiet r pl HP (Forall_inv H)). apply IH, (Forall_inv_tail H).
Qed.
(** Only layers, statements and imports touch the layers. *)
Lemma quiet_sub r pl ctx s : tidy pl r -> quiet r -> sub1 w ctx r s = s.
Proof.
  intros H Q. destruct r as [st l|b|q l|k l|n l|n|n p b|n b|n b|n|]; try contradiction; try reflexivity.
  - apply (inner_quiet (Style st l) InStyle); [discriminate|]. apply tidy_Style in H. apply tidy_Style. exact H.
  - apply (inner_quiet (Cond q l) (inner pl)); [destruct pl; discriminate|]. apply tidy_Cond in H. apply tidy_Cond.
    destruct pl; exact H.
  - apply (inner_quiet (Wrap k l) (inner pl)); [destruct pl; discriminate|]. apply tidy_Wrap in H. apply tidy_Wrap.
    destruct pl; exact H.
Qed.
Lemma quiet_subl l pl ctx s : Forall (tidy pl) l -> Forall quiet l -> subl w ctx l s = s.
Proof.
  induction l as [|r l IH]; intros H Q; [reflexivity|]. change (r :: l) with ([r] ++ l).
  rewrite subl_app by (eapply tidy_named_all; try (constructor; [exact (Forall_inv H) | constructor]); exact (Forall_inv_tail H)).
  rewrite subl_one, (quiet_sub r pl ctx s (Forall_inv H) (Forall_inv Q)). apply IH; [exact (Forall_inv_tail H) | exact (Forall_inv_tail Q)].
Qed.
End Quiet.

(** ** Blocks *)
Section Blocks.
Variable c : config.
Variable w : world.
Lemma best_map q imp s l : best w q imp (map (EDecl (Some s) imp) l) = option_map (pair s) (block_value w q l).
Proof.
  induction l as [|d l IH]; [reflexivity|]. unfold best, block_value in *. cbn [map fold_right last_some]. rewrite IH.
  cbn [candidate]. rewrite Bool.eqb_reflx. destruct (sets w d q) as [v|]; destruct (last_some (fun d => sets w d q) l) as [v'|];
    cbn [option_map orelse join]; try reflexivity. rewrite N.leb_refl. reflexivity.
Qed.
Lemma best_other q imp s i l : i <> imp -> best w q imp (map (EDecl s i) l) = None.
Proof.
  intros HN. induction l as [|d l IH]; [reflexivity|]. unfold best in *. cbn [map fold_right]. rewrite IH, join_none_r.
  cbn [candidate]. destruct s; [|reflexivity]. destruct (Bool.eqb i imp) eqn:E; [apply Bool.eqb_prop in E; contradiction | reflexivity].
Qed.
Lemma best_nowhere q imp i l : best w q imp (map (EDecl None i) l) = None.
Proof. induction l as [|d l IH]; [reflexivity|]. unfold best in *. cbn [map fold_right]. rewrite IH. reflexivity. Qed.
Lemma best_block q imp sp b : best w q imp (block_events sp b)
  = match sp with None => None | Some s => option_map (pair s) (block_value w q (if imp then snd b else fst b)) end.
Proof.
  unfold block_events. rewrite best_app. destruct sp as [s|]; [|rewrite !best_nowhere; reflexivity]. destruct imp.
  - rewrite best_other by discriminate. rewrite join_none_l. apply best_map.
  - rewrite (best_other q false (Some s) true) by discriminate. rewrite join_none_r. apply best_map.
Qed.
Lemma kf_decls n p s i l : kf_in n p (map (EDecl s i) l) = None.
Proof. unfold kf_in. induction l as [|d l IH]; [reflexivity|]. cbn [map last_some]. rewrite IH. reflexivity. Qed.
Lemma prop_decls n s i l : prop_in n (map (EDecl s i) l) = None.
Proof. unfold prop_in. induction l as [|d l IH]; [reflexivity|]. cbn [map last_some]. rewrite IH. reflexivity. Qed.
Lemma other_decls s i l : other_events (map (EDecl s i) l) = [].
Proof. induction l as [|d l IH]; [reflexivity|]. exact IH. Qed.
Lemma kf_app n p a b : kf_in n p (a ++ b) = orelse (kf_in n p b) (kf_in n p a).
Proof. apply last_some_app. Qed.
Lemma prop_app n a b : prop_in n (a ++ b) = orelse (prop_in n b) (prop_in n a).
Proof. apply last_some_app. Qed.
Lemma kf_block n p s b : kf_in n p (block_events s b) = None.
Proof. unfold block_events. rewrite kf_app, !kf_decls. reflexivity. Qed.
Lemma prop_block n s b : prop_in n (block_events s b) = None.
Proof. unfold block_events. rewrite prop_app, !prop_decls. reflexivity. Qed.
Lemma other_block s b : other_events (block_events s b) = [].
Proof. unfold block_events. rewrite other_events_app, !other_decls. reflexivity. Qed.

(** Lists of events of which only the declarations count. *)
Definition only_decls (l : list event) : Prop :=
  (forall n p, kf_in n p l = None) /\ (forall n, prop_in n l = None) /\ other_events l = [].
Lemma only_block s b : only_decls (block_events s b).
Proof. split; [intros; apply kf_block|]. split; [intros; apply prop_block | apply other_block]. Qed.
Lemma only_app a b : only_decls a -> only_decls b -> only_decls (a ++ b).
Proof.
  intros (A & B & C) (A' & B' & C'). split; [intros; rewrite kf_app, A, A'; reflexivity|].
  split; [intros; rewrite prop_app, B, B'; reflexivity|]. rewrite other_events_app, C, C'. reflexivity.
Qed.
Lemma only_nil : only_decls [].
Proof. repeat split. Qed.
Lemma only_eq a b : only_decls a -> only_decls b -> (forall q imp, best w q imp a = best w q imp b) -> own_eq c w a b.
Proof.
  intros (A & B & C) (A' & B' & C') H. split; [exact H|]. split; [intros; rewrite A, A'; reflexivity|].
  split; [intros; rewrite B, B'; reflexivity | rewrite C, C'; reflexivity].
Qed.

Lemma block_value_app q a b : block_value w q (a ++ b) = orelse (block_value w q b) (block_value w q a).
Proof. apply last_some_app. Qed.
Lemma block_eq sp b b' : (forall q, block_value w q (fst b) = block_value w q (fst b') /\ block_value w q (snd b) = block_value w q (snd b')) ->
  own_eq c w (block_events sp b) (block_events sp b').
Proof.
  intros H. apply only_eq; try apply only_block. intros q imp. rewrite !best_block. destruct sp; [|reflexivity].
  destruct (H q) as (E1 & E2). destruct imp; [rewrite E2 | rewrite E1]; reflexivity.
Qed.
Lemma block_nowhere b : own_eq c w (block_events None b) [].
Proof. apply only_eq; [apply only_block | apply only_nil|]. intros q imp. rewrite best_block. reflexivity. Qed.
End Blocks.

(** ** Equality tests *)
Lemma list_eqb_eq {A} (eqb : A -> A -> bool) : (forall x y, eqb x y = true -> x = y) -> forall a b, list_eqb eqb a b = true -> a = b.
Proof.
  intros H a. induction a as [|x a IH]; intros [|y b] E; cbn [list_eqb] in E; try discriminate; [reflexivity|].
  apply andb_prop in E. destruct E as (E1 & E2). rewrite (H _ _ E1), (IH _ E2). reflexivity.
Qed.
Lemma list_eqb_refl {A} (eqb : A -> A -> bool) : (forall x, eqb x x = true) -> forall a, list_eqb eqb a a = true.
Proof. intros H a. induction a as [|x a IH]; [reflexivity|]. cbn [list_eqb]. rewrite H, IH. reflexivity. Qed.
Lemma sels_eqb_eq a b : sels_eqb a b = true -> a = b.
Proof. apply list_eqb_eq. intros x y E. apply Nat.eqb_eq, E. Qed.
Lemma decl_eqb_eq a b : decl_eqb a b = true -> a = b.
Proof.
  destruct a as [i v], b as [i' v']. unfold decl_eqb. cbn [d_id d_val]. intros E. apply andb_prop in E. destruct E as (E1 & E2).
  apply Nat.eqb_eq in E1. apply Nat.eqb_eq in E2. congruence.
Qed.
Lemma block_eqb_eq a b : block_eqb a b = true -> a = b.
Proof.
  destruct a as [x y], b as [x' y']. unfold block_eqb. cbn [fst snd]. intros E. apply andb_prop in E. destruct E as (E1 & E2).
  rewrite (list_eqb_eq _ decl_eqb_eq _ _ E1), (list_eqb_eq _ decl_eqb_eq _ _ E2). reflexivity.
Qed.
Lemma name_eqb_eq a b : name_eqb a b = true -> a = b.
Proof. apply list_eqb_eq. intros x y E. apply String.eqb_eq, E. Qed.
Lemma name_eqb_refl a : name_eqb a a = true.
Proof. apply list_eqb_refl. apply String.eqb_refl. Qed.
Lemma key_eqb_eq a b : key_eqb a b = true -> a = b.
Proof.
  destruct a as [x y], b as [x' y']. unfold key_eqb. cbn [fst snd]. intros E. apply andb_prop in E. destruct E as (E1 & E2).
  rewrite (sels_eqb_eq _ _ E1), (sels_eqb_eq _ _ E2). reflexivity.
Qed.
Lemma key_eqb_refl a : key_eqb a a = true.
Proof. unfold key_eqb, sels_eqb. rewrite !list_eqb_refl by apply Nat.eqb_refl. reflexivity. Qed.
Lemma vp_eqb_eq a b : vp_eqb a b = true -> a = b.
Proof.
  destruct a as [[] [] [] [] []], b as [[] [] [] [] []]; intros E; try discriminate E; reflexivity.
Qed.
Lemma cond_eqb_eq a b : cond_eqb a b = true -> a = b.
Proof. destruct a, b; cbn [cond_eqb]; intros E; try discriminate E; apply Nat.eqb_eq in E; congruence. Qed.
Lemma is_nil_eq {A} (l : list A) : is_nil l = true -> l = [].
Proof. destruct l; [reflexivity | discriminate]. Qed.

(** ** Style rules *)
Section Main.
Variable c : config.
Variable w : world.
Hypothesis F : faithful c w.
Hypothesis U : untargeted c.

Lemma list_spec_plain p p' ctx ctx' ss : no_none p = no_none p' -> map plain_frame ctx = map plain_frame ctx' ->
  list_spec w p ctx ss = list_spec w p' ctx' ss.
Proof.
  intros Ep Ec. unfold list_spec.
  assert (K : forallb (known w p) ss = forallb (known w p') ss).
  { clear Ec. induction ss as [|s ss IH]; [reflexivity|]. cbn [forallb]. rewrite IH.
    rewrite (f_plain_known c w F p s), (f_plain_known c w F p' s), Ep. reflexivity. }
  rewrite K. destruct (forallb (known w p') ss); [|reflexivity]. f_equal. apply map_ext. intros s.
  rewrite (f_plain c w F p ctx s), (f_plain c w F p' ctx' s), Ep, Ec. reflexivity.
Qed.
Lemma parent_spec_plain : forall ctx ctx', map plain_frame ctx = map plain_frame ctx' -> parent_spec w ctx = parent_spec w ctx'.
Proof.
  induction ctx as [|f ctx IH]; intros [|f' ctx'] E; try discriminate; [reflexivity|]. cbn [map] in E. injection E as E1 E2.
  destruct f as [p s|k], f' as [p' s'|k']; cbn [plain_frame] in E1; try discriminate; cbn [parent_spec].
  - injection E1 as Ep Es. subst s'. apply list_spec_plain; assumption.
  - apply IH, E2.
Qed.
Lemma own_plain : forall r ctx ctx', map plain_frame ctx = map plain_frame ctx' -> own w ctx r = own w ctx' r.
Proof.
  assert (FM : forall (l : list rule) (f g : rule -> list event), Forall (fun r => f r = g r) l -> flat_map f l = flat_map g l).
  { intros l f g H. induction H as [|r l E _ IH]; [reflexivity|]. cbn [flat_map]. rewrite E, IH. reflexivity. }
  intros r. induction r as [st l IH|b|q l IH|k l IH|n l IH|n|n p b|n b|n b|n|] using rule_ind'; intros ctx ctx' E; try reflexivity.
  - cbn [own]. apply flat_map_ext. intros p. rewrite (list_spec_plain p p ctx ctx' (sels st) eq_refl E). f_equal.
    apply FM. rewrite Forall_forall in *. intros r Hr. apply IH; [exact Hr|]. cbn [map]. rewrite E. reflexivity.
  - cbn [own]. rewrite (parent_spec_plain _ _ E). reflexivity.
  - cbn [own]. destruct (holds w q); [|reflexivity]. apply FM. rewrite Forall_forall in *. intros r Hr. apply IH; assumption.
  - cbn [own]. apply FM. rewrite Forall_forall in *. intros r Hr. apply IH; [exact Hr|]. cbn [map]. rewrite E. reflexivity.
Qed.
Lemma owns_plain l ctx ctx' : map plain_frame ctx = map plain_frame ctx' -> owns w ctx l = owns w ctx' l.
Proof. intros E. unfold owns. apply flat_map_ext. intros r. apply own_plain, E. Qed.

Lemma own_style s n ctx : plain_vp (vpx s) ->
  own w ctx (Style s n) = block_events (list_spec w None ctx (sels s)) (blk s) ++ owns w (FStyle None (sels s) :: ctx) n.
Proof.
  intros [E|E]; cbn [own]; rewrite E.
  - cbn [printings prefixes_of vp_empty v_none v_webkit v_moz v_ms v_o app flat_map]. rewrite app_nil_r. reflexivity.
  - cbn [printings prefixes_of vp_only_none v_none v_webkit v_moz v_ms v_o app flat_map map]. rewrite app_nil_r.
    rewrite (list_spec_plain (Some PNone) None ctx ctx (sels s) eq_refl eq_refl). f_equal.
    apply (owns_plain n). reflexivity.
Qed.
Lemma union_plain a b : plain_vp a -> plain_vp b -> plain_vp (vp_union a b).
Proof. intros [-> | ->] [-> | ->]; (left; reflexivity) || (right; reflexivity). Qed.
Lemma merged_plain a b : plain_vp a -> plain_vp b -> plain_vp (merged_prefix c a b).
Proof. intros Ha Hb. unfold merged_prefix. destruct (v_none a && compile_sel c); [exact Ha | apply union_plain; assumption]. Qed.

Lemma omax_none_r x : omax x None = x.
Proof. destruct x; reflexivity. Qed.
Lemma omax_assoc x y z : omax x (omax y z) = omax (omax x y) z.
Proof. destruct x, y, z; cbn [omax]; try reflexivity. rewrite N.max_assoc. reflexivity. Qed.
Lemma fold_omax_app a b : fold_right omax None (a ++ b) = omax (fold_right omax None a) (fold_right omax None b).
Proof. induction a as [|x a IH]; [reflexivity|]. cbn [app fold_right]. rewrite IH. apply omax_assoc. Qed.
Lemma forallb_known p l : compat c l = true -> forallb (known w p) l = true.
Proof. intros H. apply forallb_forall. intros s Hs. exact (f_compat c w F l p s H Hs). Qed.

(** [merge_style_rules] keeps the meaning of the two rules. *)
Lemma merge_ok s sn p pn s' p' ctx : merge c s sn p pn = Some (s', p') -> plain_vp (vpx s) -> plain_vp (vpx p) -> sels p <> [] ->
  sn = [] /\ pn = [] /\ sels p' <> [] /\ plain_vp (vpx p')
  /\ own_eq c w (own w ctx (Style p' [])) (own w ctx (Style p []) ++ own w ctx (Style s [])).
Proof.
  intros H Hs Hp Hn. unfold merge in H.
  destruct (sels_eqb (sels s) (sels p) && compat c (sels s) && compat c (sels p) && is_nil sn && is_nil pn
            && (negb (css_modules c) || (source s =? source p)%nat)) eqn:E1.
  - injection H as _ H. rewrite <- H. clear H p'. apply andb_prop in E1. destruct E1 as (E1 & _).
    apply andb_prop in E1. destruct E1 as (E1 & E5). apply andb_prop in E1. destruct E1 as (E1 & E4).
    apply andb_prop in E1. destruct E1 as (E1 & E3). apply andb_prop in E1. destruct E1 as (E1 & E2).
    split; [apply is_nil_eq, E4|]. split; [apply is_nil_eq, E5|]. cbn [sels vpx]. split; [exact Hn|]. split; [exact Hp|].
    rewrite !own_style by assumption. cbn [sels blk owns flat_map]. rewrite !app_nil_r.
    apply sels_eqb_eq in E1. rewrite E1.
    apply only_eq; [apply only_block | apply only_app; apply only_block|].
    intros q imp. rewrite best_app, !best_block. destruct (list_spec w None ctx (sels p)) as [sp|]; [|reflexivity].
    pose proof (f_decl c w F (fst (blk p) ++ fst (blk s), snd (blk p) ++ snd (blk s)) q) as (D1 & D2). cbn [fst snd] in D1, D2.
    rewrite block_value_app in D1, D2.
    destruct imp; [rewrite D2; generalize (block_value w q (snd (blk s))), (block_value w q (snd (blk p)))
                  | rewrite D1; generalize (block_value w q (fst (blk s))), (block_value w q (fst (blk p)))];
      intros [x|] [y|]; cbn [orelse option_map join]; rewrite ?N.leb_refl; reflexivity.
  - clear E1. destruct (block_eqb (blk s) (blk p) && is_nil sn && is_nil pn) eqn:E2; [|discriminate].
    apply andb_prop in E2. destruct E2 as (E2 & E5). apply andb_prop in E2. destruct E2 as (E2 & E4).
    apply block_eqb_eq in E2.
    destruct (negb (vp_is_empty (vpx s)) && negb (vp_is_empty (vpx p)) && equiv c (sels s) (sels p)) eqn:E3.
    + injection H as _ H. rewrite <- H. clear H p'. apply andb_prop in E3. destruct E3 as (_ & E3).
      split; [apply is_nil_eq, E4|]. split; [apply is_nil_eq, E5|]. cbn [sels vpx]. split; [exact Hn|].
      pose proof (merged_plain _ _ Hs Hp) as Hm. split; [exact Hm|].
      rewrite !own_style by assumption. cbn [sels blk owns flat_map]. rewrite !app_nil_r. rewrite E2.
      rewrite (f_equiv c w F _ _ None ctx E3).
      apply only_eq; [apply only_block | apply only_app; apply only_block|].
      intros q imp. rewrite best_app, !best_block. destruct (list_spec w None ctx (sels p)) as [sp|]; [|reflexivity].
      destruct (block_value w q (if imp then snd (blk p) else fst (blk p))); cbn [option_map join]; rewrite ?N.leb_refl; reflexivity.
    + clear E3. destruct (compat c (sels s) && compat c (sels p)) eqn:E6; [|discriminate].
      apply andb_prop in E6. destruct E6 as (E6 & E7).
      injection H as _ H. rewrite <- H. clear H p'.
      split; [apply is_nil_eq, E4|]. split; [apply is_nil_eq, E5|]. cbn [sels vpx].
      split; [destruct (sels p); [congruence | discriminate]|].
      pose proof (merged_plain _ _ Hs Hp) as Hm. split; [exact Hm|].
      rewrite !own_style by assumption. cbn [sels blk owns flat_map]. rewrite !app_nil_r. rewrite E2.
      apply only_eq; [apply only_block | apply only_app; apply only_block|].
      intros q imp. rewrite best_app, !best_block. unfold list_spec.
      rewrite forallb_app, (forallb_known None _ E6), (forallb_known None _ E7). cbn [andb].
      rewrite map_app, fold_omax_app.
      destruct (fold_right omax None (map (matches w None ctx) (sels p))) as [a|];
        destruct (fold_right omax None (map (matches w None ctx) (sels s))) as [b|]; cbn [omax];
        destruct (block_value w q (if imp then snd (blk p) else fst (blk p))) as [v|]; cbn [option_map join]; try reflexivity.
      destruct (N.leb_spec a b); [rewrite N.max_r by assumption | rewrite N.max_l by lia]; reflexivity.
Qed.

(** All rules of a list are style rules. *)
Definition is_style (r : rule) : Prop := match r with Style _ _ => True | _ => False end.

Lemma squeeze_ok before : forall s sn r n ctx pl, squeeze c s sn before = (r, n) ->
  Forall (tidy pl) before -> tidy pl (Style s sn) ->
  exists x xn A B, r = Style x xn :: A /\ before = B ++ A /\ Forall is_style B /\ tidy pl (Style x xn) /\ (xn = [] \/ xn = sn)
    /\ own_eq c w (owns w ctx (rev r)) (owns w ctx (rev before ++ [Style s sn])).
Proof.
  induction before as [|b t IH]; intros s sn r n ctx pl H HT HS; cbn [squeeze] in H.
  - injection H as <- _. exists s, sn, [], []. split; [reflexivity|]; split; [reflexivity|]; split; [constructor|]; split; [assumption|].
    split; [right; reflexivity | apply own_eq_refl].
  - assert (Base : (Style s sn :: b :: t, []) = (r, n) ->
      exists x xn A B, r = Style x xn :: A /\ b :: t = B ++ A /\ Forall is_style B /\ tidy pl (Style x xn) /\ (xn = [] \/ xn = sn)
        /\ own_eq c w (owns w ctx (rev r)) (owns w ctx (rev (b :: t) ++ [Style s sn]))).
    { intros E. injection E as <- _. exists s, sn, (b :: t), []. split; [reflexivity|]; split; [reflexivity|]; split; [constructor|]; split; [assumption|].
      split; [right; reflexivity | apply own_eq_refl]. }
    destruct b as [p pn|?|? ?|? ?|? ?|?|? ? ?|? ?|? ?|?|]; try exact (Base H).
    destruct (merge c s sn p pn) as [[s' p']|] eqn:EM; [|exact (Base H)].
    destruct (squeeze c p' pn t) as [r0 n0] eqn:EQ. injection H as <- _.
    pose proof (Forall_inv HT) as HP. pose proof (proj1 (tidy_Style _ _ _) HP) as (P1 & P2 & P3).
    pose proof (proj1 (tidy_Style _ _ _) HS) as (S1 & S2 & S3).
    destruct (merge_ok _ _ _ _ _ _ ctx EM S2 P2 P1) as (-> & -> & M1 & M2 & M3).
    destruct (IH p' [] r0 n0 ctx pl EQ (Forall_inv_tail HT)) as (x & xn & A & B & -> & -> & HB & HX & HN & HE).
    { apply tidy_Style. split; [exact M1|]. split; [exact M2 | constructor]. }
    exists x, xn, A, (Style p [] :: B). split; [reflexivity|]. split; [reflexivity|]. split; [constructor; [exact I | exact HB]|].
    split; [exact HX|]. split; [left; destruct HN; assumption|].
    eapply own_eq_trans; [exact HE|]. cbn [rev]. rewrite !owns_app. rewrite <- app_assoc. apply own_eq_app; [apply own_eq_refl|].
    unfold owns at 1 2 3. cbn [flat_map]. rewrite !app_nil_r. exact M3.
Qed.

Lemma try_merge_ok s sn l s' l' n ctx pl : try_merge c s sn l = Some (s', l', n) -> Forall (tidy pl) l -> tidy pl (Style s sn) ->
  exists x A B, l = A ++ B /\ l' = A ++ [Style x []] /\ Forall is_style B /\ tidy pl (Style x [])
    /\ own_eq c w (owns w ctx l') (owns w ctx (l ++ [Style s sn])).
Proof.
  intros H HT HS. unfold try_merge in H. destruct (rev l) as [|b t] eqn:ER; [discriminate|].
  destruct b as [p pn|?|? ?|? ?|? ?|?|? ? ?|? ?|? ?|?|]; try discriminate.
  destruct (merge c s sn p pn) as [[s0 p']|] eqn:EM; [|discriminate].
  destruct (squeeze c p' pn t) as [r0 n0] eqn:EQ. injection H as _ <- _.
  assert (EL : l = rev t ++ [Style p pn]).
  { rewrite <- (rev_involutive l), ER. reflexivity. }
  subst l. clear ER. apply Forall_app in HT. destruct HT as (HT & HP). apply Forall_inv in HP.
  pose proof (proj1 (tidy_Style _ _ _) HP) as (P1 & P2 & P3).
  pose proof (proj1 (tidy_Style _ _ _) HS) as (S1 & S2 & S3).
  destruct (merge_ok _ _ _ _ _ _ ctx EM S2 P2 P1) as (-> & -> & M1 & M2 & M3).
  destruct (squeeze_ok t p' [] r0 n0 ctx pl EQ) as (x & xn & A & B & -> & -> & HB & HX & HN & HE).
  { rewrite <- (rev_involutive t). apply Forall_rev. exact HT. }
  { apply tidy_Style. split; [exact M1|]. split; [exact M2 | constructor]. }
  assert (xn = []) as -> by (destruct HN; assumption).
  exists x, (rev A), (rev B ++ [Style p []]). split; [rewrite rev_app_distr, app_assoc; reflexivity|]. split; [reflexivity|].
  split; [apply Forall_app; split; [apply Forall_rev; exact HB | constructor; [exact I | constructor]]|]. split; [exact HX|].
  eapply own_eq_trans; [exact HE|]. rewrite !owns_app, <- app_assoc. apply own_eq_app; [apply own_eq_refl|].
  unfold owns. cbn [flat_map]. rewrite !app_nil_r. exact M3.
Qed.

(** ** Keyframes and registered properties come from this level *)
Definition is_keyf (n : string) (r : rule) : bool := match r with Keyf n' _ _ => (n' =? n)%string | _ => false end.
Definition is_prop (n : string) (r : rule) : bool := match r with Prop_ n' _ => (n' =? n)%string | _ => false end.
Definition is_layer (n : lname) (r : rule) : bool := match r with LayerB (Some n') _ => name_eqb n n' | _ => false end.
Definition silent (l : list event) : Prop := (forall n p, kf_in n p l = None) /\ (forall n, prop_in n l = None).
Lemma silent_nil : silent [].
Proof. split; reflexivity. Qed.
Lemma silent_app a b : silent a -> silent b -> silent (a ++ b).
Proof. intros (A & B) (A' & B'). split; intros; [rewrite kf_app, A, A' | rewrite prop_app, B, B']; reflexivity. Qed.
Lemma silent_flat {A} (f : A -> list event) l : Forall (fun x => silent (f x)) l -> silent (flat_map f l).
Proof. intros H. induction H as [|x l Hx _ IH]; [apply silent_nil|]. cbn [flat_map]. apply silent_app; assumption. Qed.
Lemma silent_block s b : silent (block_events s b).
Proof. split; intros; [apply kf_block | apply prop_block]. Qed.
Lemma inner_silent : forall r pl, pl <> Outer -> tidy pl r -> forall ctx, silent (own w ctx r).
Proof.
  intros r. induction r as [st l IH|b|q l IH|k l IH|n l IH|n|n p b|n b|n b|n|] using rule_ind'; intros pl HP H ctx; cbn [own];
    try apply silent_nil.
  - apply tidy_Style in H. destruct H as (_ & _ & H). apply silent_flat. apply Forall_forall. intros p _.
    apply silent_app; [apply silent_block|]. apply silent_flat. rewrite Forall_forall in *. intros r Hr.
    apply (IH r Hr InStyle); [discriminate | exact (H r Hr)].
  - apply silent_block.
  - apply tidy_Cond in H. destruct (holds w q); [|apply silent_nil]. apply silent_flat. rewrite Forall_forall in *. intros r Hr.
    apply (IH r Hr (inner pl)); [destruct pl; discriminate | exact (H r Hr)].
  - apply tidy_Wrap in H. apply silent_flat. rewrite Forall_forall in *. intros r Hr.
    apply (IH r Hr (inner pl)); [destruct pl; discriminate | exact (H r Hr)].
  - contradiction.
  - contradiction.
  - destruct H.
Qed.
Lemma level_silent r pl ctx : tidy pl r ->
  (forall n p, is_keyf n r = false -> kf_in n p (own w ctx r) = None) /\ (forall n, is_prop n r = false -> prop_in n (own w ctx r) = None).
Proof.
  intros H.
  assert (G : (forall pl', pl' <> Outer -> tidy pl' r -> silent (own w ctx r)) ->
    (exists pl', pl' <> Outer /\ tidy pl' r) ->
    (forall n p, is_keyf n r = false -> kf_in n p (own w ctx r) = None) /\ (forall n, is_prop n r = false -> prop_in n (own w ctx r) = None)).
  { intros G (pl' & A & B). destruct (G pl' A B) as (G1 & G2). split; intros; [apply G1 | apply G2]. }
  specialize (G (fun pl' A B => inner_silent r pl' A B ctx)).
  destruct r as [st l|b|q l|k l|n l|n|n p b|n b|n b|n|]; try (split; reflexivity).
  - apply G. exists InStyle. split; [discriminate|]. apply tidy_Style. apply tidy_Style in H. exact H.
  - apply G. exists InStyle. split; [discriminate | exact I].
  - apply G. exists (inner pl). split; [destruct pl; discriminate|]. apply tidy_Cond in H. apply tidy_Cond. destruct pl; exact H.
  - apply G. exists (inner pl). split; [destruct pl; discriminate|]. apply tidy_Wrap in H. apply tidy_Wrap. destruct pl; exact H.
  - cbn [own is_keyf]. split; intros m.
    + intros p' E. induction (prefixes_of p) as [|x l IH]; [reflexivity|]. unfold kf_in in *. cbn [map last_some]. rewrite IH, E. reflexivity.
    + intros _. induction (prefixes_of p) as [|x l IH]; [reflexivity|]. unfold prop_in in *. cbn [map last_some]. rewrite IH. reflexivity.
  - cbn [own is_prop]. split; intros m; [reflexivity|]. intros E. unfold prop_in. cbn [last_some orelse]. rewrite E. reflexivity.
  - destruct H.
Qed.
Lemma level_no_kf l pl ctx n p : Forall (tidy pl) l -> Forall (fun r => is_keyf n r = false) l -> kf_in n p (owns w ctx l) = None.
Proof.
  induction l as [|r l IH]; intros H K; [reflexivity|]. unfold owns. cbn [flat_map]. rewrite kf_app.
  change (flat_map (own w ctx) l) with (owns w ctx l). rewrite IH by exact (Forall_inv_tail H) || exact (Forall_inv_tail K).
  cbn [orelse]. apply (proj1 (level_silent r pl ctx (Forall_inv H))). exact (Forall_inv K).
Qed.
Lemma level_no_prop l pl ctx n : Forall (tidy pl) l -> Forall (fun r => is_prop n r = false) l -> prop_in n (owns w ctx l) = None.
Proof.
  induction l as [|r l IH]; intros H K; [reflexivity|]. unfold owns. cbn [flat_map]. rewrite prop_app.
  change (flat_map (own w ctx) l) with (owns w ctx l). rewrite IH by exact (Forall_inv_tail H) || exact (Forall_inv_tail K).
  cbn [orelse]. apply (proj2 (level_silent r pl ctx (Forall_inv H))). exact (Forall_inv K).
Qed.

Lemma kf_events n p ps x d : kf_in n p (map (fun y => EKeyf x y d) ps)
  = if (x =? n)%string && existsb (fun y => prefix_eqb y p) ps then Some d else None.
Proof.
  induction ps as [|y ps IH]; cbn [map existsb]; [rewrite andb_false_r; reflexivity|]. unfold kf_in in *. cbn [last_some]. rewrite IH.
  destruct (x =? n)%string; cbn [andb orelse]; [|reflexivity]. destruct (existsb (fun y => prefix_eqb y p) ps); cbn [orelse];
    [rewrite orb_true_r; reflexivity | rewrite orb_false_r; destruct (prefix_eqb y p); reflexivity].
Qed.
Lemma kf_events_best q imp ps x d : best w q imp (map (fun y => EKeyf x y d) ps) = None.
Proof. induction ps as [|y ps IH]; [reflexivity|]. unfold best in *. cbn [map fold_right]. rewrite IH. reflexivity. Qed.
Lemma kf_events_prop n ps x d : prop_in n (map (fun y => EKeyf x y d) ps) = None.
Proof. induction ps as [|y ps IH]; [reflexivity|]. unfold prop_in in *. cbn [map last_some]. rewrite IH. reflexivity. Qed.
Lemma kf_events_other ps x d : other_events (map (fun y => EKeyf x y d) ps) = [].
Proof. induction ps as [|y ps IH]; [reflexivity|]. exact IH. Qed.
Lemma prefixes_union p a b : existsb (fun y => prefix_eqb y p) (prefixes_of (vp_union a b))
  = existsb (fun y => prefix_eqb y p) (prefixes_of a) || existsb (fun y => prefix_eqb y p) (prefixes_of b).
Proof.
  destruct a as [[] [] [] [] []], b as [[] [] [] [] []], p; reflexivity.
Qed.

(** Keyframes may be replaced, or their prefixes merged, at their earlier place. *)
Lemma keyf_replace A n p b0 b M ctx pl : Forall (tidy pl) M -> Forall (fun r => is_keyf n r = false) M ->
  own_eq c w (owns w ctx (A ++ Keyf n p b :: M)) (owns w ctx (A ++ (Keyf n p b0 :: M) ++ [Keyf n p b])).
Proof.
  intros H K. rewrite !owns_app. apply own_eq_app; [apply own_eq_refl|]. unfold owns. cbn [flat_map own]. rewrite app_nil_r.
  fold (owns w ctx M). split; [|split; [|split]].
  - intros q imp. rewrite !best_app, !kf_events_best, ?join_none_r, ?join_none_l. reflexivity.
  - intros m x _. rewrite !kf_app, !kf_events.
    destruct (n =? m)%string eqn:E; cbn [andb orelse].
    + apply String.eqb_eq in E. subst m. rewrite (level_no_kf M pl ctx n x H K). cbn [orelse].
      destruct (existsb (fun y => prefix_eqb y x) (prefixes_of p)); reflexivity.
    + reflexivity.
  - intros m _. rewrite !prop_app, !kf_events_prop. destruct (prop_in m (owns w ctx M)); reflexivity.
  - rewrite !other_events_app, !kf_events_other, app_nil_r. reflexivity.
Qed.
Lemma keyf_union A n p0 p b M ctx pl : Forall (tidy pl) M -> Forall (fun r => is_keyf n r = false) M ->
  own_eq c w (owns w ctx (A ++ Keyf n (vp_union p0 p) b :: M)) (owns w ctx (A ++ (Keyf n p0 b :: M) ++ [Keyf n p b])).
Proof.
  intros H K. rewrite !owns_app. apply own_eq_app; [apply own_eq_refl|]. unfold owns. cbn [flat_map own]. rewrite app_nil_r.
  fold (owns w ctx M). split; [|split; [|split]].
  - intros q imp. rewrite !best_app, !kf_events_best, ?join_none_r, ?join_none_l. reflexivity.
  - intros m x _. rewrite !kf_app, !kf_events, prefixes_union.
    destruct (n =? m)%string eqn:E; cbn [andb orelse].
    + apply String.eqb_eq in E. subst m. rewrite (level_no_kf M pl ctx n x H K). cbn [orelse].
      destruct (existsb (fun y => prefix_eqb y x) (prefixes_of p)), (existsb (fun y => prefix_eqb y x) (prefixes_of p0)); reflexivity.
    + reflexivity.
  - intros m _. rewrite !prop_app, !kf_events_prop. destruct (prop_in m (owns w ctx M)); reflexivity.
  - rewrite !other_events_app, !kf_events_other, app_nil_r. reflexivity.
Qed.
Lemma prop_replace A n b0 b M ctx pl : Forall (tidy pl) M -> Forall (fun r => is_prop n r = false) M ->
  own_eq c w (owns w ctx (A ++ Prop_ n b :: M)) (owns w ctx (A ++ (Prop_ n b0 :: M) ++ [Prop_ n b])).
Proof.
  intros H K. rewrite !owns_app. apply own_eq_app; [apply own_eq_refl|]. unfold owns. cbn [flat_map own].
  fold (owns w ctx M). cbn [app]. split; [|split; [|split]].
  - intros q imp. change (EProp n b :: owns w ctx M) with ([EProp n b] ++ owns w ctx M).
    change (EProp n b0 :: owns w ctx M ++ [EProp n b]) with ([EProp n b0] ++ owns w ctx M ++ [EProp n b]).
    rewrite !best_app. unfold best at 1 3 5. cbn [fold_right candidate]. rewrite ?join_none_r, ?join_none_l. reflexivity.
  - intros m x _. change (EProp n b :: owns w ctx M) with ([EProp n b] ++ owns w ctx M).
    change (EProp n b0 :: owns w ctx M ++ [EProp n b]) with ([EProp n b0] ++ owns w ctx M ++ [EProp n b]).
    rewrite !kf_app. cbn [kf_in last_some orelse]. destruct (kf_in m x (owns w ctx M)); reflexivity.
  - intros m _. change (EProp n b :: owns w ctx M) with ([EProp n b] ++ owns w ctx M).
    change (EProp n b0 :: owns w ctx M ++ [EProp n b]) with ([EProp n b0] ++ owns w ctx M ++ [EProp n b]).
    rewrite !prop_app. cbn [prop_in last_some orelse]. destruct (n =? m)%string eqn:E; cbn [orelse].
    + apply String.eqb_eq in E. subst m. rewrite (level_no_prop M pl ctx n H K). reflexivity.
    + destruct (prop_in m (owns w ctx M)); reflexivity.
  - change (EProp n b :: owns w ctx M) with ([EProp n b] ++ owns w ctx M).
    change (EProp n b0 :: owns w ctx M ++ [EProp n b]) with ([EProp n b0] ++ owns w ctx M ++ [EProp n b]).
    rewrite !other_events_app. cbn [other_events filter]. cbn [app]. rewrite app_nil_r. reflexivity.
Qed.

(** ** A later rule with the same selectors and properties *)
Definition covers (old new : style) : Prop :=
  sels old = sels new /\ map d_id (fst (blk old) ++ snd (blk old)) = map d_id (fst (blk new) ++ snd (blk new))
  /\ List.length (snd (blk old)) = List.length (snd (blk new)).
Lemma same_ids_value q : forall l l', map d_id l = map d_id l' -> block_value w q l = None <-> block_value w q l' = None.
Proof.
  intros l. induction l as [|d l IH]; intros [|d' l'] E; try discriminate E; [tauto|]. cbn [map] in E. injection E as E1 E2.
  unfold block_value in *. cbn [last_some]. specialize (IH l' E2).
  pose proof (f_id c w F d d' q E1) as I1. pose proof (f_id c w F d' d q (eq_sym E1)) as I2.
  destruct (last_some (fun d => sets w d q) l) as [v|], (last_some (fun d => sets w d q) l') as [v'|]; cbn [orelse].
  - split; discriminate.
  - destruct IH as (_ & IH). discriminate (IH eq_refl).
  - destruct IH as (IH & _). discriminate (IH eq_refl).
  - tauto.
Qed.
Lemma covers_parts old new : covers old new ->
  map d_id (fst (blk old)) = map d_id (fst (blk new)) /\ map d_id (snd (blk old)) = map d_id (snd (blk new)).
Proof.
  intros (_ & E & L). rewrite !map_app in E.
  assert (L' : List.length (map d_id (fst (blk old))) = List.length (map d_id (fst (blk new)))).
  { pose proof (f_equal (@List.length nat) E) as E'. rewrite !app_length, !map_length in E'. rewrite !map_length. lia. }
  revert E L'. generalize (map d_id (snd (blk old))), (map d_id (snd (blk new))), (map d_id (fst (blk old))), (map d_id (fst (blk new))).
  intros s s' f. induction f as [|x f IH]; intros [|y f'] E L'; try discriminate L'; [split; [reflexivity | exact E]|].
  cbn [app] in E. injection E as -> E. destruct (IH f' E) as (-> & ->); [injection L' as L'; exact L' | split; reflexivity].
Qed.
Lemma dominated A M old new ctx : covers old new -> plain_vp (vpx old) -> plain_vp (vpx new) ->
  own_eq c w (owns w ctx (A ++ Ignored :: M ++ [Style new []])) (owns w ctx (A ++ Style old [] :: M ++ [Style new []])).
Proof.
  intros H HO HN. rewrite !owns_app. apply own_eq_app; [apply own_eq_refl|]. unfold owns. cbn [flat_map own app].
  rewrite !flat_map_app. cbn [flat_map]. change (flat_map (own w ctx) M) with (owns w ctx M).
  change (flat_map (fun p => block_events (list_spec w p ctx (sels old)) (blk old) ++ []) (printings (vpx old)))
    with (own w ctx (Style old [])).
  change (flat_map (fun p => block_events (list_spec w p ctx (sels new)) (blk new) ++ []) (printings (vpx new)))
    with (own w ctx (Style new [])).
  rewrite !own_style by assumption. cbn [owns flat_map]. rewrite !app_nil_r.
  pose proof (covers_parts _ _ H) as (P1 & P2). destruct H as (ES & _ & _). rewrite ES.
  set (sp := list_spec w None ctx (sels new)).
  split; [|split; [|split]].
  - intros q imp. rewrite !best_app, !best_block. destruct sp as [s|]; [|rewrite join_none_l; reflexivity].
    assert (V : block_value w q (if imp then snd (blk old) else fst (blk old)) = None
            <-> block_value w q (if imp then snd (blk new) else fst (blk new)) = None).
    { destruct imp; apply same_ids_value; assumption. }
    destruct (block_value w q (if imp then snd (blk old) else fst (blk old))) as [v|]; [|cbn [option_map]; rewrite join_none_l; reflexivity].
    destruct (block_value w q (if imp then snd (blk new) else fst (blk new))) as [v'|].
    2:{ destruct V as (_ & V). discriminate (V eq_refl). }
    cbn [option_map]. destruct (best w q imp (owns w ctx M)) as [[m vm]|]; cbn [join].
    + destruct (N.leb_spec m s); cbn [join].
      * rewrite N.leb_refl. reflexivity.
      * destruct (N.leb_spec s m); [reflexivity | lia].
    + rewrite N.leb_refl. reflexivity.
  - intros n p _. rewrite !kf_app, !kf_block. cbn [orelse]. destruct (kf_in n p (owns w ctx M)); reflexivity.
  - intros n _. rewrite !prop_app, !prop_block. cbn [orelse]. destruct (prop_in n (owns w ctx M)); reflexivity.
  - rewrite !other_events_app, !other_block. reflexivity.
Qed.

(** ** Indices in the tables *)
Definition at_ (f : rule -> bool) (i : nat) (l : list rule) : Prop :=
  exists A M, map f l = A ++ true :: M /\ List.length A = i /\ Forall (fun b => b = false) M.
Lemma at_split f i l : at_ f i l -> exists A x M, l = A ++ x :: M /\ List.length A = i /\ f x = true /\ Forall (fun r => f r = false) M.
Proof.
  intros (A & M & E & L & H). apply map_eq_app in E. destruct E as (A' & R & -> & EA & ER). destruct R as [|x R]; [discriminate|].
  cbn [map] in ER. injection ER as EX EM. exists A', x, R. split; [reflexivity|]. subst A M. rewrite map_length in L.
  split; [exact L|]. split; [exact EX|]. apply Forall_map in H. exact H.
Qed.
Lemma at_push f i l r : at_ f i l -> f r = false -> at_ f i (l ++ [r]).
Proof.
  intros (A & M & E & L & H) Hr. exists A, (M ++ [false]). rewrite map_app, E. cbn [map]. rewrite Hr, <- app_assoc. split; [reflexivity|].
  split; [exact L|]. apply Forall_app. split; [exact H | constructor; [reflexivity | constructor]].
Qed.
Lemma at_new f l r : f r = true -> at_ f (List.length l) (l ++ [r]).
Proof.
  intros Hr. exists (map f l), []. rewrite map_app. cbn [map]. rewrite Hr. split; [reflexivity|]. split; [apply map_length | constructor].
Qed.
Lemma at_shrink1 f i l r : at_ f i (l ++ [r]) -> f r = false -> at_ f i l.
Proof.
  intros (A & M & E & L & H) Hr. rewrite map_app in E. cbn [map] in E. rewrite Hr in E.
  destruct (exists_last (l := true :: M)) as (M' & b & EM); [discriminate|]. rewrite EM, app_assoc in E.
  apply app_inj_tail in E. destruct E as (E & <-). destruct M' as [|b' M']; [discriminate EM|]. cbn [app] in EM. injection EM as <- EM.
  exists A, M'. split; [exact E|]. split; [exact L|]. rewrite EM in H. apply Forall_app in H. exact (proj1 H).
Qed.
Lemma at_tail f i A B x n : (forall s l, f (Style s l) = false) -> at_ f i (A ++ B) -> Forall is_style B -> at_ f i (A ++ [Style x n]).
Proof.
  intros HF H HB. apply at_push; [|apply HF].
  revert H. induction B as [|b B IH] using rev_ind; intros H; [rewrite app_nil_r in H; exact H|].
  apply Forall_app in HB. destruct HB as (HB & Hb). apply IH; [exact HB|]. rewrite app_assoc in H. apply at_shrink1 in H; [exact H|].
  apply Forall_inv in Hb. destruct b; try contradiction. apply HF.
Qed.
Lemma map_set_nth (f : rule -> bool) : forall l j x y, nth_error l j = Some y -> f x = f y -> map f (set_nth j x l) = map f l.
Proof.
  induction l as [|a l IH]; intros [|j] x y H E; cbn [set_nth map nth_error] in *; try reflexivity.
  - injection H as ->. rewrite E. reflexivity.
  - rewrite (IH j x y H E). reflexivity.
Qed.
Lemma at_set f i l j x y : at_ f i l -> nth_error l j = Some y -> f x = f y -> at_ f i (set_nth j x l).
Proof. intros H E EF. unfold at_. rewrite (map_set_nth f l j x y E EF). exact H. Qed.
Lemma set_nth_app {A} (l : list A) x y m : set_nth (List.length l) x (l ++ y :: m) = l ++ x :: m.
Proof. induction l as [|a l IH]; [reflexivity|]. cbn [List.length app set_nth]. rewrite IH. reflexivity. Qed.
Lemma nth_error_mid {A} (l : list A) y m : nth_error (l ++ y :: m) (List.length l) = Some y.
Proof. rewrite nth_error_app2 by apply le_n. rewrite Nat.sub_diag. reflexivity. Qed.
Lemma nth_error_parts {A} (l : list A) i x : nth_error l i = Some x -> exists a b, l = a ++ x :: b /\ List.length a = i.
Proof. intros H. apply nth_error_split in H. destruct H as (a & b & E & L). exists a, b. split; assumption. Qed.

Lemma lookup_insert {K} (eqb : K -> K -> bool) (R : forall x, eqb x x = true) (Q : forall x y, eqb x y = true -> x = y) k v m k' i :
  lookup eqb k' (insert eqb k v m) = Some i -> (k' = k /\ i = v) \/ (eqb k' k = false /\ lookup eqb k' m = Some i).
Proof.
  induction m as [|[k0 v0] m IH]; cbn [insert lookup].
  - destruct (eqb k' k) eqn:E; [|discriminate]. intros H. injection H as <-. left. split; [apply Q, E | reflexivity].
  - destruct (eqb k k0) eqn:E0; cbn [lookup].
    + apply Q in E0. subst k0. destruct (eqb k' k) eqn:E; intros H.
      * injection H as <-. left. split; [apply Q, E | reflexivity].
      * right. split; [reflexivity | exact H].
    + destruct (eqb k' k0) eqn:E; intros H.
      * right. injection H as <-. split; [|reflexivity]. apply Q in E. subst k0.
        destruct (eqb k' k) eqn:E1; [|reflexivity]. apply Q in E1. subst k. rewrite R in E0. discriminate.
      * apply IH in H. destruct H as [H|H]; [left; exact H | right; exact H].
Qed.

Definition not_statement (r : rule) : Prop := match r with LayerS _ => False | _ => True end.
Record inv (pl : place) (st : state) : Prop := {
  i_tidy : Forall (tidy pl) (rules st);
  i_k : forall n i, lookup String.eqb n (kmap st) = Some i -> at_ (is_keyf n) i (rules st);
  i_p : forall n i, lookup String.eqb n (pmap st) = Some i -> at_ (is_prop n) i (rules st);
  i_l : forall n i, lookup name_eqb n (lmap st) = Some i -> at_ (is_layer n) i (rules st);
  i_s : Forall not_statement (rules st)
}.
Definition ok_note (n : note) : Prop :=
  match n with
  | Removed i j old on new => i <> j /\ on = [] /\ covers old new
  | Popped => True
  end.

Lemma inv_init pl : inv pl init.
Proof. constructor; cbn; try constructor; intros n i H; discriminate H. Qed.
Lemma inv_notes pl st n : inv pl st -> inv pl (add_notes st n).
Proof. intros [A B C D E]. constructor; assumption. Qed.
(** A rule is pushed that the tables do not know. *)
Definition unlisted (r : rule) : Prop := match r with Keyf _ _ _ | Prop_ _ _ | LayerB (Some _) _ | LayerS _ => False | _ => True end.
Lemma unlisted_false r : unlisted r -> (forall n, is_keyf n r = false) /\ (forall n, is_prop n r = false) /\ (forall n, is_layer n r = false)
  /\ not_statement r.
Proof.
  intros H. destruct r as [?|?|? ?|? ?|[?|] ?|?|? ? ?|? ?|? ?|?|]; try contradiction; repeat split; reflexivity.
Qed.
Lemma inv_push pl st r : inv pl st -> tidy pl r -> unlisted r -> inv pl (push st r).
Proof.
  intros [A B C D E] HT HU. destruct (unlisted_false r HU) as (U1 & U2 & U3 & U4). constructor; cbn [push with_rules rules kmap pmap lmap].
  - apply Forall_app. split; [exact A | constructor; [exact HT | constructor]].
  - intros n i H. apply at_push; [apply B, H | apply U1].
  - intros n i H. apply at_push; [apply C, H | apply U2].
  - intros n i H. apply at_push; [apply D, H | apply U3].
  - apply Forall_app. split; [exact E | constructor; [exact U4 | constructor]].
Qed.
(** The style rules at the end are replaced by one. *)
Lemma inv_tail pl st A B x n : inv pl st -> rules st = A ++ B -> Forall is_style B -> tidy pl (Style x n) ->
  inv pl (with_rules st (A ++ [Style x n])).
Proof.
  intros [H1 H2 H3 H4 H5] E HB HT. rewrite E in *. constructor; cbn [with_rules rules kmap pmap lmap].
  - apply Forall_app in H1. apply Forall_app. split; [exact (proj1 H1) | constructor; [exact HT | constructor]].
  - intros m i H. apply (at_tail _ _ A B); [reflexivity | apply H2, H | exact HB].
  - intros m i H. apply (at_tail _ _ A B); [reflexivity | apply H3, H | exact HB].
  - intros m i H. apply (at_tail _ _ A B); [reflexivity | apply H4, H | exact HB].
  - apply Forall_app in H5. apply Forall_app. split; [exact (proj1 H5) | constructor; [exact I | constructor]].
Qed.
Lemma Forall_set_nth {A} (P : A -> Prop) : forall l j x, Forall P l -> P x -> Forall P (set_nth j x l).
Proof.
  induction l as [|a l IH]; intros [|j] x H HX; cbn [set_nth]; try constructor; try exact HX; try exact (Forall_inv H);
    try exact (Forall_inv_tail H). apply IH; [exact (Forall_inv_tail H) | exact HX].
Qed.
(** A rule is replaced by one that the tables do not tell apart. *)
Lemma inv_set pl st j x y : inv pl st -> nth_error (rules st) j = Some y -> tidy pl x -> not_statement x ->
  (forall n, is_keyf n x = is_keyf n y) -> (forall n, is_prop n x = is_prop n y) -> (forall n, is_layer n x = is_layer n y) ->
  inv pl (with_rules st (set_nth j x (rules st))).
Proof.
  intros [H1 H2 H3 H4 H5] E HT HS K P L. constructor; cbn [with_rules rules kmap pmap lmap].
  - apply Forall_set_nth; assumption.
  - intros m i H. apply (at_set _ _ _ _ _ y); [apply H2, H | exact E | apply K].
  - intros m i H. apply (at_set _ _ _ _ _ y); [apply H3, H | exact E | apply P].
  - intros m i H. apply (at_set _ _ _ _ _ y); [apply H4, H | exact E | apply L].
  - apply Forall_set_nth; assumption.
Qed.

(** ** Equal lists from equal events *)
Lemma tidy_app_named pl a b : Forall (tidy pl) a -> Forall (tidy pl) b -> Forall named (a ++ b).
Proof. intros H1 H2. apply Forall_app. split; eapply tidy_named_all; eassumption. Qed.
Lemma leq_quiet ctx pl A B B' : Forall (tidy pl) A -> Forall (tidy pl) B -> Forall (tidy pl) B' -> Forall quiet B -> Forall quiet B' ->
  own_eq c w (owns w ctx (A ++ B)) (owns w ctx (A ++ B')) -> leq c w ctx (A ++ B) (A ++ B').
Proof.
  intros HA HB HB' Q Q' E. apply leq_intro; [eapply tidy_app_named; eassumption | eapply tidy_app_named; eassumption | exact E|].
  intros s. rewrite !subl_app by (eapply tidy_named_all; eassumption). rewrite (quiet_subl w B pl), (quiet_subl w B' pl) by assumption.
  apply seq_refl.
Qed.
Lemma quiet_style r : is_style r -> quiet r.
Proof. destruct r; intros H; try contradiction; exact I. Qed.
Lemma Forall_one {A} (P : A -> Prop) x : P x -> Forall P [x].
Proof. intros H. constructor; [exact H | constructor]. Qed.
Lemma leq_one ctx r r' : (forall t, teq c w (add w ctx r t) (add w ctx r' t)) -> leq c w ctx [r] [r'].
Proof. intros H t. apply H. Qed.
Lemma leq_mid ctx A x y B : leq c w ctx [x] [y] -> leq c w ctx (A ++ x :: B) (A ++ y :: B).
Proof.
  intros H. apply leq_app; [apply leq_refl|]. change (x :: B) with ([x] ++ B). change (y :: B) with ([y] ++ B).
  apply leq_app; [exact H | apply leq_refl].
Qed.
Lemma leq_end ctx A x y : leq c w ctx [x] [y] -> leq c w ctx (A ++ [x]) (A ++ [y]).
Proof. intros H. apply leq_app; [apply leq_refl | exact H]. Qed.
Lemma leq_drop ctx A x : leq c w ctx [] [x] -> leq c w ctx A (A ++ [x]).
Proof. intros H. rewrite <- (app_nil_r A) at 1. apply leq_app; [apply leq_refl | exact H]. Qed.
(** Removing or changing a quiet rule in the middle. *)
Lemma leq_mid_own ctx pl A x y B B' : Forall (tidy pl) (A ++ x :: B) -> Forall (tidy pl) (A ++ y :: B') -> quiet x -> quiet y ->
  (forall s, subl w ctx B s = subl w ctx B' s) ->
  own_eq c w (owns w ctx (A ++ x :: B)) (owns w ctx (A ++ y :: B')) -> leq c w ctx (A ++ x :: B) (A ++ y :: B').
Proof.
  intros H H' Qx Qy HS E. pose proof (tidy_named_all _ _ H) as N1. pose proof (tidy_named_all _ _ H') as N2.
  apply leq_intro; [assumption | assumption | exact E|].
  intros s. apply Forall_app in H. apply Forall_app in H'. destruct H as (HA & HX), H' as (_ & HY).
  apply Forall_app in N1. apply Forall_app in N2. destruct N1 as (NA & N1), N2 as (_ & N2).
  rewrite !(subl_app w A) by assumption.
  change (x :: B) with ([x] ++ B). change (y :: B') with ([y] ++ B').
  rewrite (subl_app w [x] B), (subl_app w [y] B') by (apply Forall_one; first [exact (Forall_inv N1) | exact (Forall_inv N2)])
    || (first [exact (Forall_inv_tail N1) | exact (Forall_inv_tail N2)]).
  rewrite !subl_one. rewrite (quiet_sub w x pl _ _ (Forall_inv HX) Qx), (quiet_sub w y pl _ _ (Forall_inv HY) Qy). rewrite HS. apply seq_refl.
Qed.

(** ** Layers *)
Lemma at_layer_names x f s : In (Some x) (map fst s) -> map fst (at_layer x f s) = map fst s.
Proof.
  induction s as [|[[m|] t] s IH]; cbn [at_layer map fst]; intros H; [destruct H| |].
  - destruct (m =? x)%string eqn:E; [reflexivity|]. cbn [map fst]. rewrite IH; [reflexivity|]. destruct H as [H|H]; [|exact H].
    injection H as ->. rewrite String.eqb_refl in E. discriminate.
  - rewrite IH; [reflexivity|]. destruct H as [H|H]; [discriminate | exact H].
Qed.
Lemma at_layer_here x f s : In (Some x) (map fst (at_layer x f s)).
Proof.
  induction s as [|[[m|] t] s IH]; cbn [at_layer]; [left; reflexivity| |right; exact IH].
  destruct (m =? x)%string eqn:E; [left; apply String.eqb_eq in E; subst m; reflexivity | right; exact IH].
Qed.
Lemma at_layer_keep x y f s : In (Some x) (map fst s) -> In (Some x) (map fst (at_layer y f s)).
Proof.
  induction s as [|[[m|] t] s IH]; cbn [at_layer map fst]; intros H; [destruct H| |].
  - destruct (m =? y)%string; [exact H|]. cbn [map fst]. destruct H as [H|H]; [left; exact H | right; exact (IH H)].
  - cbn [map fst]. destruct H as [H|H]; [left; exact H | right; exact (IH H)].
Qed.
Lemma at_layer_fuse x f g s : at_layer x f (at_layer x g s) = at_layer x (fun t => f (g t)) s.
Proof.
  induction s as [|[[m|] t] s IH]; cbn [at_layer]; [rewrite String.eqb_refl; reflexivity| |rewrite IH; reflexivity].
  destruct (m =? x)%string eqn:E; cbn [at_layer]; rewrite E; [reflexivity | rewrite IH; reflexivity].
Qed.
Lemma at_layer_comm x y f g s : x <> y -> In (Some x) (map fst s) -> at_layer x f (at_layer y g s) = at_layer y g (at_layer x f s).
Proof.
  intros N. induction s as [|[[m|] t] s IH]; cbn [at_layer map fst]; intros H; [destruct H| |].
  - destruct (m =? y)%string eqn:Ey; destruct (m =? x)%string eqn:Ex; cbn [at_layer]; rewrite ?Ey, ?Ex; try reflexivity.
    + apply String.eqb_eq in Ey. apply String.eqb_eq in Ex. congruence.
    + rewrite IH; [reflexivity|]. destruct H as [H|H]; [|exact H]. injection H as ->. rewrite String.eqb_refl in Ex. discriminate.
  - rewrite IH; [reflexivity|]. destruct H as [H|H]; [discriminate | exact H].
Qed.
Lemma at_layer_anon x f s u : In (Some x) (map fst s) -> at_layer x f (s ++ [(None, u)]) = at_layer x f s ++ [(None, u)].
Proof.
  induction s as [|[[m|] t] s IH]; cbn [app at_layer map fst]; intros H; [destruct H| |].
  - destruct (m =? x)%string eqn:E; [reflexivity|]. cbn [app]. rewrite IH; [reflexivity|]. destruct H as [H|H]; [|exact H].
    injection H as ->. rewrite String.eqb_refl in E. discriminate.
  - cbn [app]. rewrite IH; [reflexivity|]. destruct H as [H|H]; [discriminate | exact H].
Qed.
Lemma at_layer_id x s : In (Some x) (map fst s) -> at_layer x (fun t => t) s = s.
Proof.
  induction s as [|[[m|] t] s IH]; cbn [at_layer map fst]; intros H; [destruct H| |].
  - destruct (m =? x)%string eqn:E; [reflexivity|]. rewrite IH; [reflexivity|]. destruct H as [H|H]; [|exact H].
    injection H as ->. rewrite String.eqb_refl in E. discriminate.
  - rewrite IH; [reflexivity|]. destruct H as [H|H]; [discriminate | exact H].
Qed.
Lemma sub1_LayerB y l ctx s : sub1 w ctx (LayerB (Some [y]) l) s = at_layer y (adds w ctx l) s.
Proof. unfold sub1. rewrite add_LayerB. reflexivity. Qed.
Lemma sub1_LayerN l ctx s : sub1 w ctx (LayerB None l) s = s ++ [(None, adds w ctx l bare)].
Proof. unfold sub1. rewrite add_LayerN. reflexivity. Qed.
Lemma sub1_LayerS names : forall ctx s, Forall (fun n => exists x, n = [x]) names ->
  sub1 w ctx (LayerS names) s = fold_left (fun s n => match n with [x] => at_layer x (fun t => t) s | _ => s end) names s.
Proof.
  induction names as [|n names IH]; intros ctx s H; [reflexivity|]. destruct (Forall_inv H) as (x & ->).
  unfold sub1 in *. cbn [add fold_left] in *. change (at_path [x] (fun t => t) (Node [] s)) with (Node [] (at_layer x (fun t => t) s)).
  apply (IH ctx). exact (Forall_inv_tail H).
Qed.

(** One rule passes a change of a layer that is already there and that it does not touch. *)
Lemma layer_through1 x f r ctx s : tidy Outer r -> not_statement r -> is_layer [x] r = false -> In (Some x) (map fst s) ->
  at_layer x f (sub1 w ctx r s) = sub1 w ctx r (at_layer x f s) /\ In (Some x) (map fst (sub1 w ctx r s)).
Proof.
  intros HT HS HL HI.
  assert (Q : quiet r -> at_layer x f (sub1 w ctx r s) = sub1 w ctx r (at_layer x f s) /\ In (Some x) (map fst (sub1 w ctx r s))).
  { intros Q. rewrite !(quiet_sub w r Outer) by assumption. split; [reflexivity | exact HI]. }
  destruct r as [st l|b|q l|k l|n l|n|n p b|n b|n b|n|]; try (apply Q; exact I).
  - destruct n as [n|].
    + apply tidy_LayerB in HT. destruct HT as (_ & (y & ->) & _). rewrite !sub1_LayerB. cbn [is_layer name_eqb list_eqb] in HL.
      split; [|apply at_layer_keep, HI]. apply at_layer_comm; [|exact HI]. intros ->.
      unfold name_eqb in HL. cbn [list_eqb] in HL. rewrite String.eqb_refl in HL. discriminate.
    + rewrite !sub1_LayerN. split; [apply at_layer_anon, HI|]. rewrite map_app. apply in_or_app. left. exact HI.
  - destruct HS.
  - destruct HT.
Qed.
Lemma layer_through x f M : forall ctx s, Forall (tidy Outer) M -> Forall not_statement M -> Forall (fun r => is_layer [x] r = false) M ->
  In (Some x) (map fst s) -> at_layer x f (subl w ctx M s) = subl w ctx M (at_layer x f s) /\ In (Some x) (map fst (subl w ctx M s)).
Proof.
  induction M as [|r M IH]; intros ctx s HT HS HL HI; [split; [reflexivity | exact HI]|].
  change (r :: M) with ([r] ++ M).
  assert (NR : Forall named [r]) by (apply Forall_one; exact (tidy_named _ _ (Forall_inv HT))).
  assert (NM : Forall named M) by exact (tidy_named_all _ _ (Forall_inv_tail HT)).
  rewrite !(subl_app w [r] M) by assumption. rewrite !subl_one.
  destruct (layer_through1 x f r ctx s (Forall_inv HT) (Forall_inv HS) (Forall_inv HL) HI) as (E & HI').
  destruct (IH ctx (sub1 w ctx r s) (Forall_inv_tail HT) (Forall_inv_tail HS) (Forall_inv_tail HL) HI') as (E' & HI'').
  split; [rewrite E', E; reflexivity | exact HI''].
Qed.
Lemma layer_merge A x l0 l M ctx : Forall (tidy Outer) (A ++ LayerB (Some [x]) l0 :: M) -> Forall not_statement M ->
  Forall (fun r => is_layer [x] r = false) M -> Forall (tidy Outer) l ->
  leq c w ctx (A ++ LayerB (Some [x]) (l0 ++ l) :: M) ((A ++ LayerB (Some [x]) l0 :: M) ++ [LayerB (Some [x]) l]).
Proof.
  intros HT HS HL Hl. pose proof (proj1 (Forall_app _ _ _) HT) as (HA & HX).
  pose proof (Forall_inv HX) as H0. apply tidy_LayerB in H0. destruct H0 as (_ & _ & H0).
  pose proof (Forall_inv_tail HX) as HM.
  assert (T1 : tidy Outer (LayerB (Some [x]) (l0 ++ l))).
  { apply tidy_LayerB. split; [reflexivity|]. split; [eauto|]. apply Forall_app. split; assumption. }
  assert (T2 : tidy Outer (LayerB (Some [x]) l)).
  { apply tidy_LayerB. split; [reflexivity|]. split; [eauto|]. assumption. }
  assert (N0 : Forall named (A ++ LayerB (Some [x]) l0 :: M)) by exact (tidy_named_all _ _ HT).
  apply leq_intro.
  - apply Forall_app. split; [exact (tidy_named_all _ _ HA)|]. constructor; [exact (tidy_named _ _ T1) | exact (tidy_named_all _ _ HM)].
  - apply Forall_app. split; [exact N0|]. apply Forall_one. exact (tidy_named _ _ T2).
  - rewrite !owns_app. unfold owns. cbn [flat_map own]. rewrite app_nil_r. apply own_eq_refl.
  - intros s. rewrite (subl_app w (A ++ LayerB (Some [x]) l0 :: M)) by (exact N0 || (apply Forall_one; exact (tidy_named _ _ T2))).
    rewrite subl_one, sub1_LayerB.
    assert (NA : Forall named A) by exact (tidy_named_all _ _ HA).
    assert (NM : Forall named M) by exact (tidy_named_all _ _ HM).
    assert (N1 : Forall named [LayerB (Some [x]) (l0 ++ l)]) by (apply Forall_one; exact (tidy_named _ _ T1)).
    assert (N2 : Forall named [LayerB (Some [x]) l0]) by (apply Forall_one; exact (tidy_named _ _ (Forall_inv HX))).
    rewrite !(subl_app w A) by (assumption || (constructor; [exact (Forall_inv N1) | exact NM]) || (constructor; [exact (Forall_inv N2) | exact NM])).
    change (LayerB (Some [x]) (l0 ++ l) :: M) with ([LayerB (Some [x]) (l0 ++ l)] ++ M).
    change (LayerB (Some [x]) l0 :: M) with ([LayerB (Some [x]) l0] ++ M).
    rewrite (subl_app w [LayerB (Some [x]) (l0 ++ l)]), (subl_app w [LayerB (Some [x]) l0]) by assumption.
    rewrite !subl_one, !sub1_LayerB.
    destruct (layer_through x (adds w ctx l) M ctx (at_layer x (adds w ctx l0) (subl w ctx A s)) HM HS HL (at_layer_here _ _ _)) as (-> & _).
    rewrite at_layer_fuse. rewrite (at_layer_ext x (adds w ctx (l0 ++ l)) (fun t => adds w ctx l (adds w ctx l0 t))) by (intros; apply adds_app).
    apply seq_refl.
Qed.
Lemma layer_present x i l ctx s : Forall (tidy Outer) l -> Forall not_statement l -> at_ (is_layer [x]) i l ->
  In (Some x) (map fst (subl w ctx l s)).
Proof.
  intros HT HS H. apply at_split in H. destruct H as (A & r & M & -> & _ & Hr & HM).
  apply Forall_app in HT. destruct HT as (HA & HX). apply Forall_app in HS. destruct HS as (_ & HS).
  destruct r as [?|?|? ?|? ?|[n|] l|?|? ? ?|? ?|? ?|?|]; try discriminate Hr. cbn [is_layer] in Hr. apply name_eqb_eq in Hr. subst n.
  pose proof (tidy_named_all _ _ HA) as NA. pose proof (tidy_named_all _ _ HX) as NX.
  rewrite (subl_app w A) by assumption. change (LayerB (Some [x]) l :: M) with ([LayerB (Some [x]) l] ++ M).
  rewrite (subl_app w [LayerB (Some [x]) l]) by (apply Forall_one; exact (Forall_inv NX)) || exact (Forall_inv_tail NX).
  rewrite subl_one, sub1_LayerB.
  exact (proj2 (layer_through x (fun t => t) M ctx _ (Forall_inv_tail HX) (Forall_inv_tail HS) HM (at_layer_here _ _ _))).
Qed.

(** ** Places where nothing matches *)
Definition dead (ctx : list frame) : Prop := (forall k p s, matches w p (k ++ ctx) s = None) /\ parent_spec w ctx = None.
Lemma dead_spec p ctx ss : dead ctx -> list_spec w p ctx ss = None.
Proof.
  intros (H & _). unfold list_spec. destruct (forallb (known w p) ss); [|reflexivity].
  induction ss as [|s ss IH]; [reflexivity|]. cbn [map fold_right]. rewrite IH. specialize (H [] p s). cbn [app] in H. rewrite H. reflexivity.
Qed.
Lemma dead_style p ss ctx : dead ctx -> dead (FStyle p ss :: ctx).
Proof.
  intros H. split; [|cbn [parent_spec]; apply dead_spec, H]. intros k p' s.
  replace (k ++ FStyle p ss :: ctx) with ((k ++ [FStyle p ss]) ++ ctx) by (rewrite <- app_assoc; reflexivity). apply H.
Qed.
Lemma dead_wrap k ctx : dead ctx -> dead (FWrap k :: ctx).
Proof.
  intros H. split; [|cbn [parent_spec]; apply H]. intros k' p' s.
  replace (k' ++ FWrap k :: ctx) with ((k' ++ [FWrap k]) ++ ctx) by (rewrite <- app_assoc; reflexivity). apply H.
Qed.
Lemma dead_unused p ss ctx : unused c ss = true -> dead (FStyle p ss :: ctx).
Proof. intros H. split; [intros k p' s; apply (f_unused_inside c w F), H | cbn [parent_spec]; apply (f_unused c w F), H]. Qed.
Lemma eq_nil_app a b : own_eq c w a [] -> own_eq c w b [] -> own_eq c w (a ++ b) [].
Proof. intros H1 H2. exact (own_eq_app c w a [] b [] H1 H2). Qed.
Lemma eq_nil_flat {A} (f : A -> list event) l : Forall (fun x => own_eq c w (f x) []) l -> own_eq c w (flat_map f l) [].
Proof. intros H. induction H as [|x l Hx _ IH]; [apply own_eq_refl|]. cbn [flat_map]. apply eq_nil_app; assumption. Qed.
Lemma dead_own : forall r ctx, tidy InStyle r -> dead ctx -> own_eq c w (own w ctx r) [].
Proof.
  intros r. induction r as [st l IH|b|q l IH|k l IH|n l IH|n|n p b|n b|n b|n|] using rule_ind'; intros ctx H HD; cbn [own].
  - apply tidy_Style in H. destruct H as (_ & _ & H). apply eq_nil_flat. apply Forall_forall. intros p _.
    rewrite (dead_spec p ctx _ HD). apply eq_nil_app; [apply block_nowhere|]. apply eq_nil_flat.
    rewrite Forall_forall in *. intros r Hr. apply (IH r Hr); [exact (H r Hr) | apply dead_style, HD].
  - destruct HD as (_ & ->). apply block_nowhere.
  - apply tidy_Cond in H. destruct (holds w q); [|apply own_eq_refl]. apply eq_nil_flat. rewrite Forall_forall in *.
    intros r Hr. apply (IH r Hr); [exact (H r Hr) | exact HD].
  - apply tidy_Wrap in H. apply eq_nil_flat. rewrite Forall_forall in *. intros r Hr.
    apply (IH r Hr); [exact (H r Hr) | apply dead_wrap, HD].
  - apply own_eq_refl.
  - apply own_eq_refl.
  - discriminate H.
  - discriminate H.
  - destruct H.
  - cbn [tidy] in H. congruence.
  - apply own_eq_refl.
Qed.
(** A quiet rule that says nothing may be dropped. *)
Lemma leq_nothing ctx pl r : tidy pl r -> quiet r -> own_eq c w (own w ctx r) [] -> leq c w ctx [] [r].
Proof.
  intros HT HQ E. apply leq_intro; [constructor | apply Forall_one; exact (tidy_named _ _ HT) | |].
  - unfold owns. cbn [flat_map]. rewrite app_nil_r. apply own_eq_sym, E.
  - intros s. rewrite subl_one, (quiet_sub w r pl ctx s HT HQ). apply seq_refl.
Qed.
Lemma leq_quiet_one ctx pl r r' : tidy pl r -> tidy pl r' -> quiet r -> quiet r' -> own_eq c w (own w ctx r) (own w ctx r') ->
  leq c w ctx [r] [r'].
Proof.
  intros HT HT' Q Q' E. apply (leq_quiet ctx pl [] [r] [r']); try (apply Forall_one; assumption); [constructor|].
  unfold owns. cbn [app flat_map]. rewrite !app_nil_r. exact E.
Qed.

(** ** The steps *)
Lemma inv_same pl st st' : rules st' = rules st -> kmap st' = kmap st -> pmap st' = pmap st -> lmap st' = lmap st -> inv pl st -> inv pl st'.
Proof. intros E1 E2 E3 E4 [A B C D E]. constructor; rewrite ?E1, ?E2, ?E3, ?E4; assumption. Qed.

Lemma keyframes_ok st name p body ctx : inv Outer st -> inv Outer (step_keyframes c st name p body)
  /\ notes (step_keyframes c st name p body) = notes st
  /\ leq c w ctx (rules (step_keyframes c st name p body)) (rules st ++ [Keyf name p body]).
Proof.
  intros HI. unfold step_keyframes. destruct (unused_name c name) eqn:EU.
  - split; [exact HI|]. split; [reflexivity|]. apply leq_drop. apply (leq_nothing ctx Outer); [reflexivity | exact I|].
    cbn [own]. split; [intros; apply kf_events_best|]. split; [|split; [intros; apply kf_events_prop | apply kf_events_other]].
    intros n x HN. rewrite kf_events. destruct (name =? n)%string eqn:E; [|reflexivity]. apply String.eqb_eq in E. congruence.
  - set (b := mkf c body).
    assert (EB : forall l, leq c w ctx l (rules st ++ [Keyf name p b]) -> leq c w ctx l (rules st ++ [Keyf name p body])).
    { intros l H. eapply leq_trans; [exact H|]. apply leq_end. apply (leq_quiet_one ctx Outer); try reflexivity; try exact I.
      cbn [own]. unfold b. rewrite (f_kf c w F). apply own_eq_refl. }
    assert (Fresh : forall st', st' = {| rules := rules st ++ [Keyf name p b]; kmap := insert String.eqb name (List.length (rules st)) (kmap st);
         lmap := lmap st; pmap := pmap st; smap := smap st; has_layers := has_layers st; notes := notes st |} ->
         inv Outer st' /\ notes st' = notes st /\ leq c w ctx (rules st') (rules st ++ [Keyf name p body])).
    { intros st' ->. split; [|split; [reflexivity | apply EB, leq_refl]]. destruct HI as [H1 H2 H3 H4 H5]. constructor; cbn [rules kmap pmap lmap].
      - apply Forall_app. split; [exact H1 | apply Forall_one; reflexivity].
      - intros n i H. apply (lookup_insert String.eqb String.eqb_refl) in H; [|intros x y E; apply String.eqb_eq, E].
        destruct H as [(-> & ->)|(E & H)]; [apply at_new; cbn [is_keyf]; apply String.eqb_refl|].
        apply at_push; [apply H2, H|]. cbn [is_keyf]. rewrite String.eqb_sym. exact E.
      - intros n i H. apply at_push; [apply H3, H | reflexivity].
      - intros n i H. apply at_push; [apply H4, H | reflexivity].
      - apply Forall_app. split; [exact H5 | apply Forall_one; exact I]. }
    destruct (lookup String.eqb name (kmap st)) as [i|] eqn:EL; [|apply Fresh; reflexivity].
    pose proof (i_k _ _ HI _ _ EL) as HA. apply at_split in HA. destruct HA as (A & r & M & EA & Ei & Hr & HM).
    destruct r as [?|?|? ?|? ?|? ?|?|n' p' b'|? ?|? ?|?|]; try discriminate Hr. cbn [is_keyf] in Hr. apply String.eqb_eq in Hr. subst n'.
    assert (EN : nth_error (rules st) i = Some (Keyf name p' b')) by (rewrite EA, <- Ei; apply nth_error_mid).
    pose proof (i_tidy _ _ HI) as HT. rewrite EA in HT. pose proof (proj1 (Forall_app _ _ _) HT) as (TA & TX).
    rewrite EN. destruct (vp_eqb p' p) eqn:EP.
    + apply vp_eqb_eq in EP. subst p'. split; [apply (inv_set Outer st i _ _ HI EN); reflexivity || exact I|].
      split; [reflexivity|]. apply EB. cbn [with_rules rules]. rewrite EA, <- Ei, set_nth_app.
      change ((A ++ Keyf name p b' :: M) ++ [Keyf name p b]) with ((A ++ Keyf name p b' :: M) ++ [Keyf name p b]).
      rewrite <- app_assoc. cbn [app].
      apply (leq_mid_own ctx Outer); try exact I.
      * apply Forall_app. split; [exact TA|]. constructor; [reflexivity | exact (Forall_inv_tail TX)].
      * apply Forall_app. split; [exact TA|]. constructor; [reflexivity|]. apply Forall_app. split; [exact (Forall_inv_tail TX) | apply Forall_one; reflexivity].
      * intros s. rewrite (subl_app w M) by (exact (tidy_named_all _ _ (Forall_inv_tail TX)) || (apply Forall_one; exact I)).
        rewrite subl_one. reflexivity.
      * exact (keyf_replace A name p b' b M ctx Outer (Forall_inv_tail TX) HM).
    + destruct (b' =? b)%nat eqn:EBB; [|apply Fresh; reflexivity]. apply Nat.eqb_eq in EBB.
      split; [apply (inv_set Outer st i _ _ HI EN); reflexivity || exact I|].
      split; [reflexivity|]. apply EB. cbn [with_rules rules]. rewrite EA, <- Ei, set_nth_app. rewrite <- app_assoc. cbn [app]. rewrite EBB.
      apply (leq_mid_own ctx Outer); try exact I.
      * apply Forall_app. split; [exact TA|]. constructor; [reflexivity | exact (Forall_inv_tail TX)].
      * apply Forall_app. split; [exact TA|]. constructor; [reflexivity|]. apply Forall_app. split; [exact (Forall_inv_tail TX) | apply Forall_one; reflexivity].
      * intros s. rewrite (subl_app w M) by (exact (tidy_named_all _ _ (Forall_inv_tail TX)) || (apply Forall_one; exact I)).
        rewrite subl_one. reflexivity.
      * exact (keyf_union A name p' p b M ctx Outer (Forall_inv_tail TX) HM).
Qed.

Lemma property_ok st name body ctx : inv Outer st -> inv Outer (step_property c st name body)
  /\ notes (step_property c st name body) = notes st
  /\ leq c w ctx (rules (step_property c st name body)) (rules st ++ [Prop_ name body]).
Proof.
  intros HI. unfold step_property. destruct (unused_name c name) eqn:EU.
  - split; [exact HI|]. split; [reflexivity|]. apply leq_drop. apply (leq_nothing ctx Outer); [reflexivity | exact I|].
    cbn [own]. split; [reflexivity|]. split; [reflexivity|]. split; [|reflexivity].
    intros n HN. unfold prop_in. cbn [last_some orelse]. destruct (name =? n)%string eqn:E; [|reflexivity]. apply String.eqb_eq in E. congruence.
  - destruct (lookup String.eqb name (pmap st)) as [i|] eqn:EL.
    + pose proof (i_p _ _ HI _ _ EL) as HA. apply at_split in HA. destruct HA as (A & r & M & EA & Ei & Hr & HM).
      destruct r as [?|?|? ?|? ?|? ?|?|? ? ?|n' b'|? ?|?|]; try discriminate Hr. cbn [is_prop] in Hr. apply String.eqb_eq in Hr. subst n'.
      assert (EN : nth_error (rules st) i = Some (Prop_ name b')) by (rewrite EA, <- Ei; apply nth_error_mid).
      pose proof (i_tidy _ _ HI) as HT. rewrite EA in HT. pose proof (proj1 (Forall_app _ _ _) HT) as (TA & TX).
      split; [apply (inv_set Outer st i _ _ HI EN); reflexivity || exact I|].
      split; [reflexivity|]. cbn [with_rules rules]. rewrite EA, <- Ei, set_nth_app. rewrite <- app_assoc. cbn [app].
      apply (leq_mid_own ctx Outer); try exact I.
      * apply Forall_app. split; [exact TA|]. constructor; [reflexivity | exact (Forall_inv_tail TX)].
      * apply Forall_app. split; [exact TA|]. constructor; [reflexivity|]. apply Forall_app. split; [exact (Forall_inv_tail TX) | apply Forall_one; reflexivity].
      * intros s. rewrite (subl_app w M) by (exact (tidy_named_all _ _ (Forall_inv_tail TX)) || (apply Forall_one; exact I)).
        rewrite subl_one. reflexivity.
      * exact (prop_replace A name b' body M ctx Outer (Forall_inv_tail TX) HM).
    + split; [|split; [reflexivity | apply leq_refl]]. destruct HI as [H1 H2 H3 H4 H5]. constructor; cbn [rules kmap pmap lmap].
      * apply Forall_app. split; [exact H1 | apply Forall_one; reflexivity].
      * intros n i H. apply at_push; [apply H2, H | reflexivity].
      * intros n i H. apply (lookup_insert String.eqb String.eqb_refl) in H; [|intros x y E; apply String.eqb_eq, E].
        destruct H as [(-> & ->)|(E & H)]; [apply at_new; cbn [is_prop]; apply String.eqb_refl|].
        apply at_push; [apply H3, H|]. cbn [is_prop]. rewrite String.eqb_sym. exact E.
      * intros n i H. apply at_push; [apply H4, H | reflexivity].
      * apply Forall_app. split; [exact H5 | apply Forall_one; exact I].
Qed.

Lemma push_layer_ok st n l : inv Outer st -> tidy Outer (LayerB (Some n) l) -> inv Outer (push_layer st n l).
Proof.
  intros [H1 H2 H3 H4 H5] HT. constructor; cbn [push_layer rules kmap pmap lmap].
  - apply Forall_app. split; [exact H1 | apply Forall_one; exact HT].
  - intros m i H. apply at_push; [apply H2, H | reflexivity].
  - intros m i H. apply at_push; [apply H3, H | reflexivity].
  - intros m i H. apply (lookup_insert name_eqb name_eqb_refl name_eqb_eq) in H.
    destruct H as [(-> & ->)|(E & H)]; [apply at_new; cbn [is_layer]; apply name_eqb_refl|].
    apply at_push; [apply H4, H | exact E].
  - apply Forall_app. split; [exact H5 | apply Forall_one; exact I].
Qed.
Lemma layer_block_ok st name l ctx : inv Outer st -> tidy Outer (LayerB name l) -> inv Outer (step_layer_block st name l)
  /\ notes (step_layer_block st name l) = notes st
  /\ leq c w ctx (rules (step_layer_block st name l)) (rules st ++ [LayerB name l]).
Proof.
  intros HI HT. unfold step_layer_block. destruct name as [n|].
  - destruct (lookup name_eqb n (lmap st)) as [i|] eqn:EL.
    + pose proof (i_l _ _ HI _ _ EL) as HA. apply at_split in HA. destruct HA as (A & r & M & EA & Ei & Hr & HM).
      destruct r as [?|?|? ?|? ?|[n'|] l'|?|? ? ?|? ?|? ?|?|]; try discriminate Hr. cbn [is_layer] in Hr. apply name_eqb_eq in Hr. subst n'.
      assert (EN : nth_error (rules st) i = Some (LayerB (Some n) l')) by (rewrite EA, <- Ei; apply nth_error_mid).
      pose proof (i_tidy _ _ HI) as HT'. rewrite EA in HT'. pose proof (proj1 (Forall_app _ _ _) HT') as (TA & TX).
      pose proof (i_s _ _ HI) as HS. rewrite EA in HS. apply Forall_app in HS. destruct HS as (_ & HS).
      apply tidy_LayerB in HT. destruct HT as (_ & (x & ->) & Hl).
      pose proof (proj1 (tidy_LayerB _ _ _) (Forall_inv TX)) as (_ & _ & Hl').
      rewrite EN. split; [|split; [reflexivity|]].
      * assert (T : tidy Outer (LayerB (Some [x]) (l' ++ l))).
        { apply tidy_LayerB. split; [reflexivity|]. split; [eauto|]. apply Forall_app. split; assumption. }
        apply (inv_set Outer st i _ _ HI EN); try exact T; try exact I; reflexivity.
      * cbn [with_rules rules]. rewrite EA, <- Ei, set_nth_app. apply layer_merge; [exact HT' | exact (Forall_inv_tail HS) | exact HM | exact Hl].
    + split; [apply push_layer_ok; assumption|]. split; [reflexivity | apply leq_refl].
  - split; [apply inv_push; [exact HI | exact HT | exact I]|]. split; [reflexivity | apply leq_refl].
Qed.
Lemma layer_statement_ok names : forall st ctx, inv Outer st -> Forall (fun n => exists x, n = [x]) names ->
  inv Outer (step_layer_statement st names) /\ notes (step_layer_statement st names) = notes st
  /\ leq c w ctx (rules (step_layer_statement st names)) (rules st ++ [LayerS names]).
Proof.
  induction names as [|n names IH]; intros st ctx HI HN.
  - split; [exact HI|]. split; [reflexivity|]. intros t. cbn [step_layer_statement fold_left]. rewrite adds_app. apply teq_refl.
  - destruct (Forall_inv HN) as (x & ->). unfold step_layer_statement. cbn [fold_left].
    change (fold_left step_layer_name names ?s) with (step_layer_statement s names).
    assert (TX : tidy Outer (LayerB (Some [x]) [])) by (apply tidy_LayerB; split; [reflexivity|]; split; [eauto | constructor]).
    assert (S1 : inv Outer (step_layer_name st [x]) /\ notes (step_layer_name st [x]) = notes st
                 /\ forall t, teq c w (adds w ctx (rules (step_layer_name st [x])) t) (at_path [x] (fun t => t) (adds w ctx (rules st) t))).
    { unfold step_layer_name. destruct (lookup name_eqb [x] (lmap st)) as [i|] eqn:EL.
      - split; [exact HI|]. split; [reflexivity|]. intros [o s]. rewrite adds_node by exact (tidy_named_all _ _ (i_tidy _ _ HI)).
        cbn [at_path]. rewrite at_layer_id; [apply teq_refl|].
        exact (layer_present x i _ ctx s (i_tidy _ _ HI) (i_s _ _ HI) (i_l _ _ HI _ _ EL)).
      - split; [apply push_layer_ok; assumption|]. split; [reflexivity|]. intros t. cbn [push_layer rules]. rewrite adds_app. cbn [adds].
        rewrite add_LayerB. rewrite (at_path_ext [x] (adds w ctx []) (fun t => t)) by reflexivity. apply teq_refl. }
    destruct S1 as (I1 & N1 & T1). destruct (IH (step_layer_name st [x]) ctx I1 (Forall_inv_tail HN)) as (I2 & N2 & L2).
    split; [exact I2|]. split; [congruence|]. eapply leq_trans; [exact L2|]. intros t. rewrite !adds_app.
    change (adds w ctx [LayerS names] ?u) with (add w ctx (LayerS names) u).
    change (adds w ctx [LayerS ([x] :: names)] ?u) with (add w ctx (LayerS names) (at_path [x] (fun t => t) u)).
    apply add_teq, T1.
Qed.

Lemma push_style_ok st s sn ctx pl : inv pl st -> tidy pl (Style s sn) -> Forall ok_note (notes (push_style c st s sn)) ->
  inv pl (push_style c st s sn) /\ Forall ok_note (notes st) /\ leq c w ctx (rules (push_style c st s sn)) (rules st ++ [Style s sn]).
Proof.
  intros HI HT HN. unfold push_style in *. destruct sn as [|r sn].
  2:{ cbn [is_nil negb] in *. split; [apply inv_push; [exact HI | exact HT | exact I]|]. split; [exact HN | apply leq_refl]. }
  cbn [is_nil negb] in *.
  assert (Plain : forall m n, notes st ++ n = notes st ++ [] -> Forall ok_note (notes st ++ n) ->
    inv pl {| rules := rules st ++ [Style s []]; kmap := kmap st; lmap := lmap st; pmap := pmap st; smap := m; has_layers := has_layers st; notes := notes st ++ n |}
    /\ Forall ok_note (notes st) /\ leq c w ctx (rules st ++ [Style s []]) (rules st ++ [Style s []])).
  { intros m n _ H. split; [|split; [apply Forall_app in H; exact (proj1 H) | apply leq_refl]].
    eapply inv_same; [| | | |exact (inv_push pl st (Style s []) HI HT I)]; reflexivity. }
  destruct (0 <? List.length (rules st))%nat; [|apply Plain; [reflexivity | exact HN]].
  destruct (entry_remove (rules st ++ [Style s []]) (List.length (rules st)) (key_of s) (smap st)) as [[i m]|];
    [|apply Plain; [reflexivity | exact HN]].
  destruct (nth_error (rules st ++ [Style s []]) i) as [ri|] eqn:EN; [|apply Plain; [reflexivity | exact HN]].
  destruct ri as [o on|?|? ?|? ?|? ?|?|? ? ?|? ?|? ?|?|]; try (apply Plain; [reflexivity | exact HN]).
  destruct (negb (css_modules c) || (source s =? source o)%nat); [|apply Plain; [reflexivity | exact HN]].
  cbn [rules notes] in *. apply Forall_app in HN. destruct HN as (HN & HR). apply Forall_inv in HR. destruct HR as (Hij & -> & HC).
  assert (Hlt : (i < List.length (rules st))%nat).
  { pose proof (proj1 (nth_error_Some (rules st ++ [Style s []]) i)) as L. rewrite EN in L. specialize (L ltac:(discriminate)).
    rewrite app_length in L. cbn [List.length] in L. lia. }
  rewrite nth_error_app1 in EN by exact Hlt. destruct (nth_error_parts _ _ _ EN) as (A & M & EA & Ei).
  assert (ES : set_nth i Ignored (rules st ++ [Style s []]) = A ++ Ignored :: M ++ [Style s []]).
  { rewrite EA, <- app_assoc, <- Ei. cbn [app]. apply set_nth_app. }
  pose proof (i_tidy _ _ HI) as HTR. rewrite EA in HTR. pose proof (proj1 (Forall_app _ _ _) HTR) as (TA & TX).
  split; [|split; [exact HN|]].
  - assert (I2 : inv pl (with_rules (push st (Style s [])) (set_nth i Ignored (rules (push st (Style s [])))))).
    { apply (inv_set pl (push st (Style s [])) i Ignored (Style o [])); try reflexivity; try exact I.
      - apply inv_push; [exact HI | exact HT | exact I].
      - cbn [push with_rules rules]. rewrite nth_error_app1 by exact Hlt. exact EN. }
    eapply inv_same; [| | | |exact I2]; reflexivity.
  - rewrite ES, EA, <- app_assoc. cbn [app].
    apply (leq_mid_own ctx pl).
    + apply Forall_app. split; [exact TA|]. constructor; [exact I|]. apply Forall_app. split; [exact (Forall_inv_tail TX) | apply Forall_one; exact HT].
    + apply Forall_app. split; [exact TA|]. constructor; [exact (Forall_inv TX)|]. apply Forall_app. split; [exact (Forall_inv_tail TX) | apply Forall_one; exact HT].
    + exact I.
    + exact I.
    + reflexivity.
    + apply dominated; [exact HC | |].
      * pose proof (proj1 (tidy_Style _ _ _) (Forall_inv TX)) as (_ & P & _). exact P.
      * pose proof (proj1 (tidy_Style _ _ _) HT) as (_ & P & _). exact P.
Qed.

Lemma add_style_ok st s sn ctx pl : inv pl st -> tidy pl (Style s sn) -> Forall ok_note (notes (add_style c st s sn)) ->
  inv pl (add_style c st s sn) /\ Forall ok_note (notes st) /\ leq c w ctx (rules (add_style c st s sn)) (rules st ++ [Style s sn]).
Proof.
  intros HI HT HN. unfold add_style in *. destruct U as (_ & US & UP). rewrite US in *.
  destruct (upd_prefix c (sels s)) as [ss v] eqn:EU.
  assert (V : ss = sels s /\ plain_vp v).
  { destruct (UP (sels s)) as [E|E]; rewrite EU in E; injection E as -> ->; split; try reflexivity; [left | right]; reflexivity. }
  destruct V as (-> & HV). set (s2 := {| sels := sels s; vpx := v; blk := blk s; source := source s |}) in *.
  pose proof (proj1 (tidy_Style _ _ _) HT) as (T1 & T2 & T3).
  assert (HT2 : tidy pl (Style s2 sn)).
  { apply tidy_Style. split; [exact T1|]. split; [exact HV | exact T3]. }
  assert (ES : leq c w ctx [Style s2 sn] [Style s sn]).
  { apply (leq_quiet_one ctx pl); try assumption; try exact I. rewrite !own_style by assumption. apply own_eq_refl. }
  destruct (try_merge c s2 sn (rules st)) as [[[s' l'] n]|] eqn:EM; cbn [map filter is_nil negb andb] in *; rewrite !andb_false_r in *.
  - cbn [orb] in *. cbn [with_rules add_notes rules notes kmap pmap lmap smap has_layers] in *. rewrite !app_nil_r in *.
    apply Forall_app in HN. destruct HN as (HN & _).
    destruct (try_merge_ok s2 sn (rules st) s' l' n ctx pl EM (i_tidy _ _ HI) HT2) as (x & A & B & EA & -> & HB & HX & HE).
    split; [|split; [exact HN|]].
    + eapply inv_same; [| | | |exact (inv_tail pl st A B x [] HI EA HB HX)]; reflexivity.
    + eapply leq_trans; [|apply leq_end; exact ES]. rewrite EA, <- app_assoc.
      pose proof (i_tidy _ _ HI) as HTR. rewrite EA in HTR. apply Forall_app in HTR. destruct HTR as (TA & TB).
      apply (leq_quiet ctx pl); try assumption.
      * apply Forall_one. exact HX.
      * apply Forall_app. split; [exact TB | apply Forall_one; exact HT2].
      * apply Forall_one. exact I.
      * apply Forall_app. split; [rewrite Forall_forall in *; intros r Hr; apply quiet_style, HB, Hr | apply Forall_one; exact I].
      * rewrite app_assoc, <- EA. exact HE.
  - cbn [orb] in *. destruct (style_is_empty s2 sn) eqn:EE.
    + cbn [with_rules rules notes] in *. rewrite app_nil_r in *. split; [eapply inv_same; [| | | |exact HI]; reflexivity|]. split; [exact HN|].
      apply leq_drop. unfold style_is_empty in EE. apply orb_prop in EE. destruct EE as [EE|EE].
      * apply is_nil_eq in EE. cbn [s2 sels] in EE. contradiction.
      * apply andb_prop in EE. destruct EE as (EE & E3). apply andb_prop in EE. destruct EE as (E1 & E2).
        apply is_nil_eq in E1. apply is_nil_eq in E2. apply is_nil_eq in E3. cbn [s2 blk] in E1, E2.
        apply (leq_nothing ctx pl); [exact HT | exact I|]. rewrite own_style by assumption. rewrite E3.
        unfold block_events. rewrite E1, E2. apply own_eq_refl.
    + cbn [with_rules rules notes] in *. rewrite app_nil_r in *.
      destruct (push_style_ok st s2 sn ctx pl HI HT2 HN) as (I2 & N2 & L2).
      split; [eapply inv_same; [| | | |exact I2]; reflexivity|]. split; [exact N2|].
      eapply leq_trans; [exact L2 | apply leq_end; exact ES].
Qed.

(** ** The log only grows *)
Lemma push_style_notes st s sn : incl (notes st) (notes (push_style c st s sn)).
Proof.
  intros x Hx. unfold push_style. destruct (negb (is_nil sn)); [exact Hx|].
  destruct (if (0 <? List.length (rules st))%nat then _ else _) as [[l1 m1] n1]. cbn [notes]. apply in_or_app. left. exact Hx.
Qed.
Lemma add_style_notes st s sn : incl (notes st) (notes (add_style c st s sn)).
Proof.
  intros x Hx. unfold add_style. destruct (split_sels c (sels s)) as [keep rest]. destruct (upd_prefix c keep) as [ss v].
  set (s1 := {| sels := ss; vpx := v; blk := blk s; source := source s |}).
  assert (G : forall (merged : bool) s2 st2 (divide : bool) own clones, incl (notes st) (notes st2) ->
    In x (notes (if divide then push (with_rules (if merged || style_is_empty s2 own then st2 else push_style c st2 s2 own)
                    (rules (if merged || style_is_empty s2 own then st2 else push_style c st2 s2 own) ++ clones))
                    (Style {| sels := sels s2; vpx := vpx s2; blk := ([], []); source := source s2 |} sn)
                 else with_rules (if merged || style_is_empty s2 own then st2 else push_style c st2 s2 own)
                    (rules (if merged || style_is_empty s2 own then st2 else push_style c st2 s2 own) ++ clones)))).
  { intros merged s2 st2 divide own0 clones HI.
    assert (X : In x (notes (if merged || style_is_empty s2 own0 then st2 else push_style c st2 s2 own0)))
      by (destruct (merged || style_is_empty s2 own0); [apply HI, Hx | apply push_style_notes, HI, Hx]).
    destruct divide; exact X. }
  destruct (try_merge c s1 sn (rules st)) as [[[s' l'] n]|]; apply G.
  - intros y Hy. cbn [add_notes notes]. apply in_or_app. left. exact Hy.
  - intros y Hy. exact Hy.
Qed.
Lemma incl_add_notes st n : incl (notes st) (notes (add_notes st n)).
Proof. intros x Hx. cbn [add_notes notes]. apply in_or_app. left. exact Hx. Qed.
Lemma step_layer_names names : forall st, notes (step_layer_statement st names) = notes st.
Proof.
  induction names as [|n names IH]; intros st; [reflexivity|]. unfold step_layer_statement. cbn [fold_left].
  change (fold_left step_layer_name names ?s) with (step_layer_statement s names). rewrite IH. unfold step_layer_name.
  destruct (lookup name_eqb n (lmap st)); reflexivity.
Qed.
Lemma step_notes rec parent st r st' : step c rec parent st r = Some st' -> incl (notes st) (notes st').
Proof.
  destruct r as [s l|b|q l|k l|n l|n|n p b|n b|n b|n|]; cbn [step]; intros H.
  - unfold step_style in H. destruct parent; [injection H as <-; apply incl_refl|].
    destruct (unused c (sels s) && is_nil l); [injection H as <-; apply incl_refl|].
    destruct (if is_nil l then Some ([], []) else rec (unused c (sels s)) l) as [[l' n]|]; [|discriminate].
    destruct (unused c (sels s) && is_nil l'); injection H as <-; [apply incl_add_notes|].
    eapply incl_tran; [apply (incl_add_notes st n) | apply add_style_notes].
  - destruct parent; injection H as <-; apply incl_refl.
  - unfold step_cond in H.
    assert (Alone : (match rec parent l with
      | None => None
      | Some (l', n) => if is_nil l' || never c (tr c q) then Some (add_notes st n) else Some (push (add_notes st n) (Cond (tr c q) l'))
      end) = Some st' -> incl (notes st) (notes st')).
    { clear H. intros H. destruct (rec parent l) as [[l' n]|]; [|discriminate]. destruct (is_nil l' || never c (tr c q));
        injection H as <-; apply incl_add_notes. }
    destruct (last_rule (rules st)) as [[before r]|]; [|exact (Alone H)].
    destruct r as [?|?|q0 l0|? ?|? ?|?|? ? ?|? ?|? ?|?|]; try exact (Alone H).
    destruct (cond_eqb q0 q); [|exact (Alone H)]. destruct (rec parent (l0 ++ l)) as [[l' n]|]; [|discriminate].
    injection H as <-. apply (incl_add_notes (with_rules st _)).
  - unfold step_wrap in H. destruct (rec (match k with WStarting => parent | _ => false end) l) as [[l' n]|]; [|discriminate].
    destruct k; try (injection H as <-; apply incl_add_notes). destruct (is_nil l'); injection H as <-; apply incl_add_notes.
  - injection H as <-. unfold step_layer_block. destruct n as [n|]; [|apply incl_refl].
    destruct (lookup name_eqb n (lmap st)) as [i|]; [|apply incl_refl]. destruct (nth_error (rules st) i) as [[?|?|? ?|? ?|? ?|?|? ? ?|? ?|? ?|?|]|]; apply incl_refl.
  - injection H as <-. rewrite step_layer_names. apply incl_refl.
  - injection H as <-. unfold step_keyframes. destruct (unused_name c n); [apply incl_refl|].
    destruct (lookup String.eqb n (kmap st)) as [i|]; [|apply incl_refl].
    destruct (nth_error (rules st) i) as [[?|?|? ?|? ?|? ?|?|? ? ?|? ?|? ?|?|]|]; try apply incl_refl.
    destruct (vp_eqb p0 p); [apply incl_refl|]. destruct (body =? mkf c b)%nat; apply incl_refl.
  - injection H as <-. unfold step_property. destruct (unused_name c n); [apply incl_refl|]. destruct (lookup String.eqb n (pmap st)); apply incl_refl.
  - injection H as <-. apply incl_refl.
  - injection H as <-. apply incl_refl.
  - injection H as <-. apply incl_refl.
Qed.
Lemma steps_notes rec l : forall parent st st', steps c rec parent st l = Some st' -> incl (notes st) (notes st').
Proof.
  induction l as [|r l IH]; intros parent st st' H; cbn [steps] in H; [injection H as <-; apply incl_refl|].
  destruct (step c rec parent st r) as [st1|] eqn:E1; [|discriminate].
  eapply incl_tran; [exact (step_notes _ _ _ _ _ E1) | exact (IH _ _ _ H)].
Qed.
Lemma finish_notes rec todo : forall parent done declared statement n l' n',
  finish rec parent todo done declared statement n = Some (l', n') -> incl n n'.
Proof.
  induction todo as [|r todo IH]; intros parent done declared statement n l' n' H; cbn [finish] in H; [injection H as _ <-; apply incl_refl|].
  destruct r as [s l|b|q l|k l|nm l|nm|nm p b|nm b|nm b|nm|]; try exact (IH _ _ _ _ _ _ _ H).
  - destruct (rec parent l) as [[l1 n1]|]; [|discriminate].
    apply (incl_tran (m := n ++ n1)); [apply incl_appl, incl_refl|].
    destruct (is_nil l1); [|exact (IH _ _ _ _ _ _ _ H)].
    destruct nm as [nm|]; [|exact (IH _ _ _ _ _ _ _ H)].
    destruct (existsb (name_eqb nm) declared); [exact (IH _ _ _ _ _ _ _ H)|].
    destruct statement as [j|]; [|exact (IH _ _ _ _ _ _ _ H)].
    destruct (nth_error done j) as [[?|?|? ?|? ?|? ?|?|? ? ?|? ?|? ?|?|]|]; exact (IH _ _ _ _ _ _ _ H).
  - destruct nm as [[nm|]|]; exact (IH _ _ _ _ _ _ _ H).
Qed.
Lemma ok_incl n n' : incl n n' -> Forall ok_note n' -> Forall ok_note n.
Proof. intros HI H. rewrite Forall_forall in *. intros x Hx. apply H, HI, Hx. Qed.

(** ** Inner lists *)
Definition recok (rec : bool -> list rule -> option (list rule * log)) : Prop :=
  forall parent l l' n pl ctx, rec parent l = Some (l', n) -> Forall (tidy pl) l -> (parent = true -> pl = InStyle /\ dead ctx) ->
  Forall ok_note n -> Forall (tidy pl) l' /\ leq c w ctx l' l.

Section Rec.
Variable rec : bool -> list rule -> option (list rule * log).
Hypothesis R : recok rec.

Lemma add_notes_ok st n : Forall ok_note (notes (add_notes st n)) -> Forall ok_note (notes st) /\ Forall ok_note n.
Proof. cbn [add_notes notes]. intros H. apply Forall_app in H. exact H. Qed.

Lemma style_ok parent st s nested st' ctx pl : inv pl st -> tidy pl (Style s nested) -> (parent = true -> pl = InStyle /\ dead ctx) ->
  step_style c rec parent st s nested = Some st' -> Forall ok_note (notes st') ->
  inv pl st' /\ Forall ok_note (notes st) /\ leq c w ctx (rules st') (rules st ++ [Style s nested]).
Proof.
  intros HI HT HD H HN. unfold step_style in H. pose proof (proj1 (tidy_Style _ _ _) HT) as (T1 & T2 & T3).
  destruct parent.
  { injection H as <-. split; [exact HI|]. split; [exact HN|]. apply leq_drop. destruct (HD eq_refl) as (-> & D).
    apply (leq_nothing ctx InStyle); [exact HT | exact I | apply dead_own; assumption]. }
  destruct (unused c (sels s) && is_nil nested) eqn:E1.
  { injection H as <-. apply andb_prop in E1. destruct E1 as (E1 & E2). apply is_nil_eq in E2. subst nested.
    split; [exact HI|]. split; [exact HN|]. apply leq_drop. apply (leq_nothing ctx pl); [exact HT | exact I|].
    rewrite own_style by assumption. rewrite (f_unused c w F _ None ctx E1). cbn [owns flat_map]. rewrite app_nil_r. apply block_nowhere. }
  clear E1.
  destruct (if is_nil nested then Some ([], []) else rec (unused c (sels s)) nested) as [[nested' n]|] eqn:ER; [|discriminate].
  set (s1 := {| sels := sels s; vpx := vpx s; blk := mdecl c (if unused c (sels s) then ([], []) else blk s); source := source s |}) in *.
  assert (HNN : Forall ok_note (notes (add_notes st n)) -> Forall (tidy InStyle) nested' /\ leq c w (FStyle None (sels s) :: ctx) nested' nested).
  { intros HN'. apply add_notes_ok in HN'. destruct nested as [|r nested]; cbn [is_nil] in ER.
    - injection ER as <- _. split; [constructor | apply leq_refl].
    - apply (R _ _ _ _ InStyle (FStyle None (sels s) :: ctx) ER T3); [|exact (proj2 HN')].
      intros EU. split; [reflexivity | apply dead_unused, EU]. }
  destruct (unused c (sels s) && is_nil nested') eqn:E2.
  - injection H as <-. apply andb_prop in E2. destruct E2 as (E1 & E2). apply is_nil_eq in E2. subst nested'.
    split; [apply inv_notes, HI|]. split; [apply add_notes_ok in HN; exact (proj1 HN)|]. cbn [add_notes rules].
    apply leq_drop. apply (leq_nothing ctx pl); [exact HT | exact I|].
    rewrite own_style by assumption. rewrite (f_unused c w F _ None ctx E1). apply eq_nil_app; [apply block_nowhere|].
    apply own_eq_sym. change (@nil event) with (owns w (FStyle None (sels s) :: ctx) []).
    apply leq_own; [constructor | exact (tidy_named_all _ _ T3) | exact (proj2 (HNN HN))].
  - injection H as <-.
    assert (A : tidy pl (Style s1 nested') -> inv pl (add_style c (add_notes st n) s1 nested') /\ Forall ok_note (notes (add_notes st n))
                /\ leq c w ctx (rules (add_style c (add_notes st n) s1 nested')) (rules (add_notes st n) ++ [Style s1 nested'])).
    { intros HT1. apply add_style_ok; [apply inv_notes, HI | exact HT1 | exact HN]. }
    assert (HN1 : Forall ok_note (notes (add_notes st n))).
    { rewrite Forall_forall in *. intros x Hx. apply HN. apply add_style_notes, Hx. }
    destruct (HNN HN1) as (T' & L').
    assert (HT1 : tidy pl (Style s1 nested')).
    { apply tidy_Style. split; [exact T1|]. split; [exact T2 | exact T']. }
    destruct (A HT1) as (I1 & _ & L1). split; [exact I1|]. split; [apply add_notes_ok in HN1; exact (proj1 HN1)|].
    eapply leq_trans; [exact L1|]. cbn [add_notes rules]. apply leq_end. apply (leq_quiet_one ctx pl); try assumption; try exact I.
    rewrite !own_style by assumption. cbn [s1 sels blk]. apply own_eq_app.
    + destruct (unused c (sels s)) eqn:EU.
      * rewrite (f_unused c w F _ None ctx EU). eapply own_eq_trans; [apply block_nowhere | apply own_eq_sym, block_nowhere].
      * apply block_eq. intros q. apply (f_decl c w F).
    + apply leq_own; [exact (tidy_named_all _ _ T') | exact (tidy_named_all _ _ T3) | exact L'].
Qed.

Lemma inner_parent parent pl ctx : (parent = true -> pl = InStyle /\ dead ctx) -> parent = true -> inner pl = InStyle /\ dead ctx.
Proof. intros H E. destruct (H E) as (-> & D). split; [reflexivity | exact D]. Qed.
Lemma own_cond q q' l l' ctx : holds w q = holds w q' -> own_eq c w (owns w ctx l) (owns w ctx l') -> own_eq c w (own w ctx (Cond q l)) (own w ctx (Cond q' l')).
Proof. intros E H. cbn [own]. rewrite E. destruct (holds w q'); [exact H | apply own_eq_refl]. Qed.
Lemma cond_ok parent st q l st' ctx pl : inv pl st -> tidy pl (Cond q l) -> (parent = true -> pl = InStyle /\ dead ctx) ->
  step_cond c rec parent st q l = Some st' -> Forall ok_note (notes st') ->
  inv pl st' /\ Forall ok_note (notes st) /\ leq c w ctx (rules st') (rules st ++ [Cond q l]).
Proof.
  intros HI HT HD H HN. unfold step_cond in H. pose proof (proj1 (tidy_Cond _ _ _) HT) as Tl.
  assert (Alone : (match rec parent l with
    | None => None
    | Some (l', n) => if is_nil l' || never c (tr c q) then Some (add_notes st n) else Some (push (add_notes st n) (Cond (tr c q) l'))
    end) = Some st' -> inv pl st' /\ Forall ok_note (notes st) /\ leq c w ctx (rules st') (rules st ++ [Cond q l])).
  { clear H. intros H. destruct (rec parent l) as [[l' n]|] eqn:ER; [|discriminate].
    assert (HNN : notes st' = notes st ++ n) by (destruct (is_nil l' || never c (tr c q)); injection H as <-; reflexivity).
    rewrite HNN in HN. apply Forall_app in HN. destruct HN as (N1 & N2).
    destruct (R _ _ _ _ (inner pl) ctx ER Tl (inner_parent _ _ _ HD) N2) as (T' & L').
    pose proof (leq_own c w ctx l' l (tidy_named_all _ _ T') (tidy_named_all _ _ Tl) L') as OE.
    destruct (is_nil l' || never c (tr c q)) eqn:E.
    - injection H as <-. split; [apply inv_notes, HI|]. split; [exact N1|]. cbn [add_notes rules]. apply leq_drop.
      apply (leq_nothing ctx pl); [exact HT | exact I|]. cbn [own]. destruct (holds w q) eqn:EH; [|apply own_eq_refl].
      apply orb_prop in E. destruct E as [E|E].
      + apply is_nil_eq in E. subst l'. apply own_eq_sym. exact OE.
      + apply (f_never c w F) in E. rewrite (f_tr c w F) in E. congruence.
    - injection H as <-.
      assert (T2 : tidy pl (Cond (tr c q) l')) by (apply tidy_Cond; exact T').
      split; [apply inv_push; [apply inv_notes, HI | exact T2 | exact I]|]. split; [exact N1|]. cbn [push with_rules add_notes rules].
      apply leq_end. apply (leq_quiet_one ctx pl); try assumption; try exact I. apply own_cond; [apply (f_tr c w F) | exact OE]. }
  unfold last_rule in H. destruct (rev (rules st)) as [|r t] eqn:ER; [exact (Alone H)|].
  destruct r as [?|?|q0 l0|? ?|? ?|?|? ? ?|? ?|? ?|?|]; try exact (Alone H).
  destruct (cond_eqb q0 q) eqn:EQ; [|exact (Alone H)]. apply cond_eqb_eq in EQ. subst q0. clear Alone.
  assert (EL : rules st = rev t ++ [Cond q l0]) by (rewrite <- (rev_involutive (rules st)), ER; reflexivity).
  destruct (rec parent (l0 ++ l)) as [[l' n]|] eqn:EC; [|discriminate]. injection H as <-. cbn [add_notes with_rules rules notes] in *.
  apply Forall_app in HN. destruct HN as (N1 & N2).
  pose proof (i_tidy _ _ HI) as HTR. rewrite EL in HTR. apply Forall_app in HTR. destruct HTR as (TA & TX). apply Forall_inv in TX.
  pose proof (proj1 (tidy_Cond _ _ _) TX) as T0.
  assert (T0l : Forall (tidy (inner pl)) (l0 ++ l)) by (apply Forall_app; split; assumption).
  destruct (R _ _ _ _ (inner pl) ctx EC T0l (inner_parent _ _ _ HD) N2) as (T' & L').
  pose proof (leq_own c w ctx l' (l0 ++ l) (tidy_named_all _ _ T') (tidy_named_all _ _ T0l) L') as OE.
  assert (T2 : tidy pl (Cond (tr c q) l')) by (apply tidy_Cond; exact T').
  split; [|split; [exact N1|]].
  - assert (EN : nth_error (rules st) (List.length (rev t)) = Some (Cond q l0)) by (rewrite EL; apply nth_error_mid).
    assert (I2 : inv pl (with_rules st (set_nth (List.length (rev t)) (Cond (tr c q) l') (rules st)))).
    { apply (inv_set pl st _ _ _ HI EN T2); try reflexivity; exact I. }
    eapply inv_same; [| | | |exact I2]; try reflexivity. cbn [with_rules rules]. rewrite EL, set_nth_app. reflexivity.
  - rewrite EL, <- app_assoc. apply (leq_quiet ctx pl); try assumption.
    + apply Forall_one. exact T2.
    + constructor; [exact TX | apply Forall_one; exact HT].
    + apply Forall_one. exact I.
    + constructor; [exact I | apply Forall_one; exact I].
    + rewrite (owns_app w (rev t) [Cond (tr c q) l']), (owns_app w (rev t) ([Cond q l0] ++ [Cond q l])).
      apply own_eq_app; [apply own_eq_refl|]. unfold owns. cbn [app flat_map own]. rewrite !app_nil_r.
      rewrite (f_tr c w F). destruct (holds w q); [|apply own_eq_refl]. rewrite <- flat_map_app. exact OE.
Qed.

Lemma wrap_ok parent st k l st' ctx pl : inv pl st -> tidy pl (Wrap k l) -> (parent = true -> pl = InStyle /\ dead ctx) ->
  step_wrap rec parent st k l = Some st' -> Forall ok_note (notes st') ->
  inv pl st' /\ Forall ok_note (notes st) /\ leq c w ctx (rules st') (rules st ++ [Wrap k l]).
Proof.
  intros HI HT HD H HN. unfold step_wrap in H. pose proof (proj1 (tidy_Wrap _ _ _) HT) as Tl.
  destruct (rec (match k with WStarting => parent | _ => false end) l) as [[l' n]|] eqn:ER; [|discriminate].
  assert (HP : match k with WStarting => parent | _ => false end = true -> inner pl = InStyle /\ dead (FWrap k :: ctx)).
  { intros E. assert (EP : parent = true) by (destruct k; [discriminate | discriminate | exact E]). destruct (HD EP) as (-> & D).
    split; [reflexivity | apply dead_wrap, D]. }
  assert (G : Forall ok_note (notes st ++ n) -> Forall ok_note (notes st) /\ tidy pl (Wrap k l') /\ own_eq c w (own w ctx (Wrap k l')) (own w ctx (Wrap k l))).
  { intros HN'. apply Forall_app in HN'. destruct HN' as (N1 & N2). destruct (R _ _ _ _ (inner pl) (FWrap k :: ctx) ER Tl HP N2) as (T' & L').
    split; [exact N1|]. split; [apply tidy_Wrap; exact T'|]. cbn [own].
    exact (leq_own c w _ l' l (tidy_named_all _ _ T') (tidy_named_all _ _ Tl) L'). }
  assert (P : Some (push (add_notes st n) (Wrap k l')) = Some st' -> inv pl st' /\ Forall ok_note (notes st) /\ leq c w ctx (rules st') (rules st ++ [Wrap k l])).
  { intros E. injection E as <-. destruct (G HN) as (N1 & T' & OE).
    split; [apply inv_push; [apply inv_notes, HI | exact T' | exact I]|]. split; [exact N1|]. cbn [push with_rules add_notes rules].
    apply leq_end. apply (leq_quiet_one ctx pl); try assumption; exact I. }
  destruct k; try exact (P H). destruct (is_nil l') eqn:E; [|exact (P H)].
  injection H as <-. destruct (G HN) as (N1 & T' & OE). apply is_nil_eq in E. subst l'.
  split; [apply inv_notes, HI|]. split; [exact N1|]. apply leq_drop. apply (leq_nothing ctx pl); [exact HT | exact I|].
  apply own_eq_sym. exact OE.
Qed.

Lemma step_ok parent st r st' ctx pl : inv pl st -> tidy pl r -> (parent = true -> pl = InStyle /\ dead ctx) ->
  step c rec parent st r = Some st' -> Forall ok_note (notes st') ->
  inv pl st' /\ Forall ok_note (notes st) /\ leq c w ctx (rules st') (rules st ++ [r]).
Proof.
  intros HI HT HD H HN. destruct r as [s l|b|q l|k l|n l|n|n p b|n b|n b|n|]; cbn [step] in H.
  - eapply style_ok; eassumption.
  - destruct parent; injection H as <-.
    + split; [exact HI|]. split; [exact HN|]. apply leq_drop. destruct (HD eq_refl) as (-> & D).
      apply (leq_nothing ctx InStyle); [exact HT | exact I | apply dead_own; assumption].
    + split; [apply inv_push; [exact HI | exact I | exact I]|]. split; [exact HN|]. cbn [push with_rules rules]. apply leq_end.
      apply (leq_quiet_one ctx pl); try exact I. cbn [own]. apply block_eq. intros x. apply (f_decl c w F).
  - eapply cond_ok; eassumption.
  - eapply wrap_ok; eassumption.
  - injection H as <-. assert (pl = Outer) as -> by (destruct n; [apply tidy_LayerB in HT | apply tidy_LayerN in HT]; exact (proj1 HT)).
    destruct (layer_block_ok st n l ctx HI HT) as (A & B & C). rewrite B in HN. split; [exact A|]. split; [exact HN | exact C].
  - injection H as <-. destruct HT as (-> & HT). destruct (layer_statement_ok n st ctx HI HT) as (A & B & C).
    rewrite B in HN. split; [exact A|]. split; [exact HN | exact C].
  - injection H as <-. cbn [tidy] in HT. subst pl. destruct (keyframes_ok st n p b ctx HI) as (A & B & C).
    rewrite B in HN. split; [exact A|]. split; [exact HN | exact C].
  - injection H as <-. cbn [tidy] in HT. subst pl. destruct (property_ok st n b ctx HI) as (A & B & C).
    rewrite B in HN. split; [exact A|]. split; [exact HN | exact C].
  - destruct HT.
  - injection H as <-. split; [apply inv_push; [exact HI | exact HT | exact I]|]. split; [exact HN | apply leq_refl].
  - injection H as <-. split; [apply inv_push; [exact HI | exact HT | exact I]|]. split; [exact HN | apply leq_refl].
Qed.
Lemma steps_ok l : forall parent st st' ctx pl, inv pl st -> Forall (tidy pl) l -> (parent = true -> pl = InStyle /\ dead ctx) ->
  steps c rec parent st l = Some st' -> Forall ok_note (notes st') ->
  inv pl st' /\ Forall ok_note (notes st) /\ leq c w ctx (rules st') (rules st ++ l).
Proof.
  induction l as [|r l IH]; intros parent st st' ctx pl HI HT HD H HN; cbn [steps] in H.
  - injection H as <-. rewrite app_nil_r. split; [exact HI|]. split; [exact HN | apply leq_refl].
  - destruct (step c rec parent st r) as [st1|] eqn:E1; [|discriminate].
    pose proof (ok_incl _ _ (steps_notes rec l parent st1 st' H) HN) as HN1.
    destruct (step_ok parent st r st1 ctx pl HI (Forall_inv HT) HD E1 HN1) as (I1 & N1 & L1).
    destruct (IH parent st1 st' ctx pl I1 (Forall_inv_tail HT) HD H HN) as (I2 & N2 & L2).
    split; [exact I2|]. split; [exact N1|]. eapply leq_trans; [exact L2|].
    replace (rules st ++ r :: l) with ((rules st ++ [r]) ++ l) by (rewrite <- app_assoc; reflexivity).
    apply leq_app; [exact L1 | apply leq_refl].
Qed.

(** ** Empty layers *)
Lemma sub1_keep x r ctx s : tidy Outer r -> In (Some x) (map fst s) -> In (Some x) (map fst (sub1 w ctx r s)).
Proof.
  intros HT HI. assert (Q : quiet r -> In (Some x) (map fst (sub1 w ctx r s))) by (intros Q; rewrite (quiet_sub w r Outer) by assumption; exact HI).
  destruct r as [st l|b|q l|k l|n l|n|n p b|n b|n b|n|]; try (apply Q; exact I).
  - destruct n as [n|].
    + apply tidy_LayerB in HT. destruct HT as (_ & (y & ->) & _). rewrite sub1_LayerB. apply at_layer_keep, HI.
    + rewrite sub1_LayerN, map_app. apply in_or_app. left. exact HI.
  - destruct HT as (_ & HT). rewrite sub1_LayerS by exact HT. clear Q. revert s HI. induction HT as [|n' n (y & ->) _ IH]; intros s HI; [exact HI|].
    cbn [fold_left]. apply IH. apply at_layer_keep, HI.
  - destruct HT.
Qed.
Definition known_layer (ctx : list frame) (done : list rule) (n : lname) : Prop :=
  exists x, n = [x] /\ forall s, In (Some x) (map fst (subl w ctx done s)).
Lemma known_push ctx done r n : Forall (tidy Outer) done -> tidy Outer r -> known_layer ctx done n -> known_layer ctx (done ++ [r]) n.
Proof.
  intros HD HR (x & -> & H). exists x. split; [reflexivity|]. intros s.
  rewrite subl_app by (exact (tidy_named_all _ _ HD) || (apply Forall_one; exact (tidy_named _ _ HR))).
  rewrite subl_one. apply sub1_keep; [exact HR | apply H].
Qed.

Lemma leq_layer ctx n l l' : leq c w ctx l' l -> leq c w ctx [LayerB n l'] [LayerB n l].
Proof.
  intros H. apply leq_one. intros t. destruct n as [n|].
  - rewrite !add_LayerB. apply at_path_teq; [|apply teq_refl]. intros u u' Hu. eapply teq_trans; [apply H | apply adds_teq, Hu].
  - destruct t as [o s]. rewrite !add_LayerN. constructor; [apply own_eq_refl|]. apply seq_app; [apply seq_refl|]. constructor; [apply H | constructor].
Qed.
Lemma leq_anonymous ctx done l : leq c w ctx [] l -> leq c w ctx (done ++ [Ignored]) (done ++ [LayerB None l]).
Proof.
  intros H. apply leq_end, leq_one. intros [o s]. rewrite add_LayerN. cbn [add]. constructor; [apply own_eq_refl|].
  rewrite <- (app_nil_r s) at 1. apply seq_app; [apply seq_refl|]. apply same_right; [|constructor].
  exact (void_teq c w _ _ (H bare) (void_bare c w)).
Qed.
Lemma leq_known ctx done x : Forall (tidy Outer) done -> known_layer ctx done [x] -> leq c w ctx (done ++ [Ignored]) (done ++ [LayerB (Some [x]) []]).
Proof.
  intros HD (y & E & H). injection E as <-. intros [o s]. rewrite !adds_app, adds_node by exact (tidy_named_all _ _ HD).
  cbn [adds]. rewrite add_LayerB. rewrite (at_path_ext [x] (adds w ctx []) (fun t => t)) by reflexivity. cbn [add at_path].
  rewrite at_layer_id by apply H. apply teq_refl.
Qed.
(** The name of an empty layer moves to the last statement. *)
Lemma subl_statement A names x M ctx s : Forall (tidy Outer) (A ++ LayerS names :: M) -> Forall quiet M ->
  subl w ctx (A ++ LayerS (names ++ [[x]]) :: M) s = at_layer x (fun t => t) (subl w ctx (A ++ LayerS names :: M) s).
Proof.
  intros HT HQ. apply Forall_app in HT. destruct HT as (HA & HX). pose proof (Forall_inv HX) as (_ & HN). pose proof (Forall_inv_tail HX) as HM.
  assert (T2 : tidy Outer (LayerS (names ++ [[x]]))).
  { split; [reflexivity|]. apply Forall_app. split; [exact HN | apply Forall_one; eauto]. }
  pose proof (tidy_named_all _ _ HA) as NA. pose proof (tidy_named_all _ _ HM) as NM. pose proof (tidy_named _ _ T2) as N2.
  pose proof (tidy_named _ _ (Forall_inv HX)) as N1.
  rewrite !(subl_app w A) by (assumption || (constructor; assumption)).
  change (LayerS (names ++ [[x]]) :: M) with ([LayerS (names ++ [[x]])] ++ M). change (LayerS names :: M) with ([LayerS names] ++ M).
  rewrite (subl_app w [LayerS (names ++ [[x]])]), (subl_app w [LayerS names]) by (assumption || (apply Forall_one; assumption)).
  rewrite !(quiet_subl w M Outer) by assumption. rewrite !subl_one, !sub1_LayerS by (exact HN || exact (proj2 T2)).
  rewrite fold_left_app. reflexivity.
Qed.
Lemma tidy_statement A names x M : Forall (tidy Outer) (A ++ LayerS names :: M) -> Forall (tidy Outer) (A ++ LayerS (names ++ [[x]]) :: M).
Proof.
  intros HT. apply Forall_app in HT. destruct HT as (HA & HX). apply Forall_app. split; [exact HA|]. constructor; [|exact (Forall_inv_tail HX)].
  split; [reflexivity|]. apply Forall_app. split; [exact (proj2 (Forall_inv HX)) | apply Forall_one; eauto].
Qed.
Lemma leq_statement A names x M ctx : Forall (tidy Outer) (A ++ LayerS names :: M) -> Forall quiet M ->
  leq c w ctx ((A ++ LayerS (names ++ [[x]]) :: M) ++ [Ignored]) ((A ++ LayerS names :: M) ++ [LayerB (Some [x]) []]).
Proof.
  intros HT HQ [o s]. rewrite (adds_app w (A ++ LayerS (names ++ [[x]]) :: M)), (adds_app w (A ++ LayerS names :: M)). 
  rewrite (adds_node w _ ctx o s (tidy_named_all _ _ HT)), (adds_node w _ ctx o s (tidy_named_all _ _ (tidy_statement A names x M HT))).
  cbn [adds]. rewrite add_LayerB. rewrite (at_path_ext [x] (adds w ctx []) (fun t => t)) by reflexivity. cbn [add at_path].
  rewrite (subl_statement A names x M ctx s HT HQ). cbn [adds add]. apply teq_node; [|apply seq_refl].
  rewrite !owns_app. unfold owns. cbn [flat_map own]. apply own_eq_refl.
Qed.

Record done_ok (ctx : list frame) (pl : place) (done : list rule) (declared : list lname) (statement : option nat) : Prop := {
  d_tidy : Forall (tidy pl) done;
  d_known : pl = Outer -> Forall (known_layer ctx done) declared;
  d_statement : forall j, statement = Some j -> exists A names M, done = A ++ LayerS names :: M /\ List.length A = j /\ Forall quiet M
}.
Lemma done_push ctx pl done declared statement r : done_ok ctx pl done declared statement -> tidy pl r -> quiet r ->
  done_ok ctx pl (done ++ [r]) declared statement.
Proof.
  intros [A B C] HT HQ. constructor.
  - apply Forall_app. split; [exact A | apply Forall_one; exact HT].
  - intros ->. specialize (B eq_refl). rewrite Forall_forall in *. intros n Hn. apply known_push; [rewrite Forall_forall; exact A | exact HT | exact (B n Hn)].
  - intros j E. destruct (C j E) as (X & names & M & -> & L & Q). exists X, names, (M ++ [r]). rewrite <- app_assoc. split; [reflexivity|].
    split; [exact L|]. apply Forall_app. split; [exact Q | apply Forall_one; exact HQ].
Qed.
Lemma done_block ctx done declared statement r : done_ok ctx Outer done declared statement -> tidy Outer r ->
  done_ok ctx Outer (done ++ [r]) declared None.
Proof.
  intros [A B C] HT. constructor.
  - apply Forall_app. split; [exact A | apply Forall_one; exact HT].
  - intros _. specialize (B eq_refl). rewrite Forall_forall in *. intros n Hn. apply known_push; [rewrite Forall_forall; exact A | exact HT | exact (B n Hn)].
  - intros j E. discriminate E.
Qed.

Lemma finish_ok todo : forall parent done declared statement n l' n' ctx pl,
  done_ok ctx pl done declared statement -> Forall (tidy pl) todo -> Forall not_statement todo -> (parent = true -> pl = InStyle /\ dead ctx) ->
  finish rec parent todo done declared statement n = Some (l', n') -> Forall ok_note n' ->
  Forall (tidy pl) l' /\ leq c w ctx l' (done ++ todo).
Proof.
  induction todo as [|r todo IH]; intros parent done declared statement n l' n' ctx pl HD HT HS HP H HN; cbn [finish] in H.
  { injection H as <- _. rewrite app_nil_r. split; [exact (d_tidy _ _ _ _ _ HD) | apply leq_refl]. }
  assert (Go : forall done' declared' statement' n1, finish rec parent todo done' declared' statement' n1 = Some (l', n') ->
    done_ok ctx pl done' declared' statement' -> leq c w ctx done' (done ++ [r]) -> Forall (tidy pl) l' /\ leq c w ctx l' (done ++ r :: todo)).
  { intros done' declared' statement' n1 H1 D1 L1.
    destruct (IH parent done' declared' statement' n1 l' n' ctx pl D1 (Forall_inv_tail HT) (Forall_inv_tail HS) HP H1 HN) as (T2 & L2).
    split; [exact T2|]. eapply leq_trans; [exact L2|].
    replace (done ++ r :: todo) with ((done ++ [r]) ++ todo) by (rewrite <- app_assoc; reflexivity).
    apply leq_app; [exact L1 | apply leq_refl]. }
  pose proof (Forall_inv HT) as Hr. pose proof (Forall_inv HS) as Sr.
  destruct r as [s l|b|q l|k l|nm l|nm|nm p b|nm b|nm b|nm|];
    try (apply (Go _ _ _ _ H); [apply done_push; [exact HD | exact Hr | exact I] | apply leq_refl]).
  - destruct (rec parent l) as [[l1 n1]|] eqn:ER; [|discriminate].
    assert (pl = Outer) as -> by (destruct nm; [apply tidy_LayerB in Hr | apply tidy_LayerN in Hr]; exact (proj1 Hr)).
    assert (Tl : Forall (tidy Outer) l) by (destruct nm; [apply tidy_LayerB in Hr | apply tidy_LayerN in Hr]; apply Hr).
    assert (N1 : incl (n ++ n1) n').
    { destruct (is_nil l1); [|exact (finish_notes _ _ _ _ _ _ _ _ _ H)].
      destruct nm as [nm|]; [|exact (finish_notes _ _ _ _ _ _ _ _ _ H)].
      destruct (existsb (name_eqb nm) declared); [exact (finish_notes _ _ _ _ _ _ _ _ _ H)|].
      destruct statement as [j|]; [|exact (finish_notes _ _ _ _ _ _ _ _ _ H)].
      destruct (nth_error done j) as [[?|?|? ?|? ?|? ?|?|? ? ?|? ?|? ?|?|]|]; exact (finish_notes _ _ _ _ _ _ _ _ _ H). }
    assert (N2 : Forall ok_note n1) by (apply (ok_incl n1 n'); [eapply incl_tran; [apply (incl_appr n), incl_refl | exact N1] | exact HN]).
    destruct (R _ _ _ _ Outer ctx ER Tl HP N2) as (T1 & L1).
    assert (Tb : tidy Outer (LayerB nm l1)).
    { destruct nm; [apply tidy_LayerB in Hr; apply tidy_LayerB | apply tidy_LayerN in Hr; apply tidy_LayerN]; tauto. }
    destruct (is_nil l1) eqn:EE.
    2:{ apply (Go _ _ _ _ H); [apply (done_block ctx done declared statement); assumption | apply leq_end, leq_layer, L1]. }
    apply is_nil_eq in EE. subst l1. destruct nm as [nm|].
    2:{ apply (Go _ _ _ _ H); [apply done_push; [exact HD | exact I | exact I] | apply leq_anonymous, L1]. }
    assert (LB : leq c w ctx (done ++ [LayerB (Some nm) []]) (done ++ [LayerB (Some nm) l])) by (apply leq_end, leq_layer, L1).
    apply tidy_LayerB in Hr. destruct Hr as (_ & (x & ->) & _).
    destruct (existsb (name_eqb [x]) declared) eqn:ED.
    { apply (Go _ _ _ _ H); [apply done_push; [exact HD | exact I | exact I]|]. eapply leq_trans; [|exact LB].
      apply leq_known; [exact (d_tidy _ _ _ _ _ HD)|]. apply existsb_exists in ED. destruct ED as (y & Hy & ED). apply name_eqb_eq in ED. subst y.
      pose proof (d_known _ _ _ _ _ HD eq_refl) as K. rewrite Forall_forall in K. exact (K _ Hy). }
    destruct statement as [j|].
    + destruct (d_statement _ _ _ _ _ HD j eq_refl) as (A & names & M & EA & EL & HQ).
      assert (EN : nth_error done j = Some (LayerS names)) by (rewrite EA, <- EL; apply nth_error_mid). rewrite EN in H.
      rewrite EA, <- EL, set_nth_app in H. pose proof (d_tidy _ _ _ _ _ HD) as TD. rewrite EA in TD.
      apply (Go _ _ _ _ H).
      * constructor.
        -- apply Forall_app. split; [apply tidy_statement, TD | apply Forall_one; exact I].
        -- intros _. pose proof (d_known _ _ _ _ _ HD eq_refl) as K. rewrite EA in K.
           assert (SE : forall s, subl w ctx ((A ++ LayerS (names ++ [[x]]) :: M) ++ [Ignored]) s = at_layer x (fun t => t) (subl w ctx (A ++ LayerS names :: M) s)).
           { intros s. rewrite subl_app by (exact (tidy_named_all _ _ (tidy_statement _ _ _ _ TD)) || (apply Forall_one; exact I)).
             rewrite subl_one. change (sub1 w ctx Ignored ?u) with u. apply subl_statement; assumption. }
           constructor.
           ++ exists x. split; [reflexivity|]. intros s. rewrite SE. apply at_layer_here.
           ++ rewrite Forall_forall in *. intros m Hm. destruct (K m Hm) as (y & -> & HY). exists y. split; [reflexivity|]. intros s.
              rewrite SE. apply at_layer_keep, HY.
        -- intros j' Ej. injection Ej as <-. exists A, (names ++ [[x]]), (M ++ [Ignored]). rewrite <- app_assoc. split; [reflexivity|].
           split; [reflexivity|]. apply Forall_app. split; [exact HQ | apply Forall_one; exact I].
      * eapply leq_trans; [|exact LB]. rewrite EA. apply leq_statement; assumption.
    + assert (TS : tidy Outer (LayerS [[x]])) by (split; [reflexivity | apply Forall_one; eauto]).
      apply (Go _ _ _ _ H).
      * constructor.
        -- apply Forall_app. split; [exact (d_tidy _ _ _ _ _ HD) | apply Forall_one; exact TS].
        -- intros _. pose proof (d_known _ _ _ _ _ HD eq_refl) as K. pose proof (d_tidy _ _ _ _ _ HD) as TD. constructor.
           ++ exists x. split; [reflexivity|]. intros s. rewrite subl_app by (exact (tidy_named_all _ _ TD) || (apply Forall_one; exact (tidy_named _ _ TS))).
              rewrite subl_one, sub1_LayerS by exact (proj2 TS). cbn [fold_left]. apply at_layer_here.
           ++ rewrite Forall_forall in K |- *. intros m Hm. apply known_push; [exact TD | exact TS | exact (K m Hm)].
        -- intros j' Ej. injection Ej as <-. exists done, [[x]], []. split; [reflexivity|]. split; [reflexivity | constructor].
      * eapply leq_trans; [|exact LB]. apply leq_end, leq_one. intros t. rewrite add_LayerB. apply teq_refl.
  - destruct Sr.
  - destruct Hr.
Qed.
End Rec.

Lemma minify_rec fuel : recok (minify c fuel).
Proof.
  induction fuel as [|fuel IH]; intros parent l l' n pl ctx H HT HD HN; cbn [minify] in H; [discriminate|].
  destruct (steps c (minify c fuel) parent init l) as [st|] eqn:ES; [|discriminate].
  assert (HS : Forall ok_note (notes st)).
  { destruct (has_layers st); [exact (ok_incl _ _ (finish_notes _ _ _ _ _ _ _ _ _ H) HN) | injection H as _ <-; exact HN]. }
  destruct (steps_ok _ IH l parent init st ctx pl (inv_init pl) HT HD ES HS) as (I1 & _ & L1). cbn [init rules app] in L1.
  destruct (has_layers st).
  - destruct (finish_ok _ IH (rules st) parent [] [] None (notes st) l' n ctx pl) as (T2 & L2); try assumption.
    + constructor; [constructor | intros _; constructor | intros j E; discriminate E].
    + exact (i_tidy _ _ I1).
    + exact (i_s _ _ I1).
    + split; [exact T2|]. eapply leq_trans; [exact L2 | exact L1].
  - injection H as <- _. split; [exact (i_tidy _ _ I1) | exact L1].
Qed.
Lemma minify_ok fuel l l' n : minify c fuel false l = Some (l', n) -> Forall (tidy Outer) l -> Forall ok_note n ->
  Forall (tidy Outer) l' /\ teq c w (sheet w l') (sheet w l).
Proof.
  intros H HT HN. destruct (minify_rec fuel false l l' n Outer [] H HT ltac:(discriminate) HN) as (T & L). split; [exact T | apply L].
Qed.
End Main.
