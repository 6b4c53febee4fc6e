(** * Side handlers: the final order of the declarations *)
From Coq Require Import List Bool.
From Verif Require Import SideModel SideSpec SideProofs.
Import ListNotations.

Lemma horizontal_proper rtl : proper (horizontal rtl).
Proof. intros a b H. destruct rtl, a, b; try reflexivity; discriminate H. Qed.

Section Values.
Variable V R : Type.
Variable veq : V -> V -> bool.
Variable compat : V -> bool.
Variable shc : category.
Variable ls bs : bool.
Notation state := (state V R).
Notation event := (event V R).
Notation sdecl := (sdecl V R).
Notation flush := (flush V R veq shc ls bs).
Notation handle := (handle V R veq compat shc ls bs).
Notation handle_all := (handle_all V R veq compat shc ls bs).
Notation minify := (minify V R veq compat shc ls bs).

(** ** Invariants of states and events *)
Section Invariant.
Variable J : state -> list event -> Prop.
Definition pres (f : state -> state * list event) : Prop :=
  forall s ev, J s ev -> J (fst (f s)) (ev ++ snd (f s)).
Hypothesis J_flush : pres flush.
Lemma pres_id (f : state -> state) : (forall s ev, J s ev -> J (f s) ev) -> pres (fun s => (f s, [])).
Proof. intros H s ev Hs. cbn [fst snd]. rewrite app_nil_r. apply H. exact Hs. Qed.
Lemma pres_then f g : pres f -> pres g -> pres (fun s => then_ V R (f s) g).
Proof.
  intros Hf Hg s ev Hs. specialize (Hf s ev Hs). destruct (f s) as [s1 e1]. cbn [fst snd then_] in *.
  specialize (Hg s1 _ Hf). destruct (g s1) as [s2 e2]. cbn [fst snd] in *. rewrite app_assoc. exact Hg.
Qed.
Lemma pres_if (c : state -> bool) : pres (fun s => if c s then flush s else (s, [])).
Proof.
  intros s ev Hs. cbn beta. destruct (c s); [apply J_flush; exact Hs | cbn [fst snd]; rewrite app_nil_r; exact Hs].
Qed.
Definition sets (d : sdecl) : Prop :=
  forall s h c ev, J s ev ->
  match d with
  | DSide k v => J (State (set_phys V R k v s) (log s) h c) ev
  | DLog k v => J (State (phys s) (set_log V R k (LVal v) s) h c) ev
  | DBlock a b => J (State (phys s) (set_log V R BlockStart (LVal a) s) h c) ev
                  /\ J (State (phys s) (set_log V R BlockEnd (LVal b) s) h c) ev
  | DInline a b => J (State (phys s) (set_log V R InlineStart (LVal a) s) h c) ev
                   /\ J (State (phys s) (set_log V R InlineEnd (LVal b) s) h c) ev
  | DAll t r b l => J (State (fun x => Some (match x with Top => t | Right => r | Bottom => b | Left => l end)) (none_log V R) h c) ev
  | DRaw (ILog k) u => J (State (phys s) (set_log V R k (LRaw u) s) h c) ev
  | DRaw _ _ => J s (ev ++ [Main d])
  end.
Lemma pres_logical k y : (forall s h c ev, J s ev -> J (State (phys s) (set_log V R k y s) h c) ev) ->
  pres (logical_property V R veq shc ls bs k y).
Proof.
  intros H. unfold logical_property. apply pres_then; [apply (pres_if (fun s => negb (cat_eqb (cat s) Logical) || (is_some (log s k) && is_raw V R y)))|].
  apply pres_id. intros s ev Hs. apply H. exact Hs.
Qed.
Lemma pres_flush_for some v c : pres (flush_for V R veq compat shc ls bs some v c).
Proof. unfold flush_for. apply (pres_if (fun s => negb (cat_eqb c (cat s)) || (some s && negb (compat v)))). Qed.
Lemma pres_handle d : sets d -> pres (fun s => handle s d).
Proof.
  intros H. destruct d as [k v|k v|a b|a b|t r b l|i u]; cbn [SideModel.handle].
  - apply pres_then; [apply pres_flush_for|]. apply pres_id. intros s ev. apply H.
  - apply pres_then; [apply pres_flush_for|]. apply pres_logical. exact H.
  - apply pres_then; [apply pres_then; [apply pres_then; apply pres_flush_for|]|]; apply pres_logical; apply H.
  - apply pres_then; [apply pres_then; [apply pres_then; apply pres_flush_for|]|]; apply pres_logical; apply H.
  - apply pres_then; [apply pres_then; [apply pres_then; [apply pres_then|]|]; apply pres_flush_for|].
    apply pres_id. intros s ev. apply H.
  - assert (P : (forall s ev, J s ev -> J s (ev ++ [Main (DRaw i u)])) -> pres (fun s => then_ V R (flush s) (fun s => (s, [Main (DRaw i u)])))).
    { intros Hr. apply pres_then; [exact J_flush|]. intros s ev Hs. cbn [fst snd]. apply Hr. exact Hs. }
    destruct i as [k|k| | |]; [|apply pres_logical; exact H| | |]; apply P; intros s ev; apply (H s true Logical).
Qed.
Lemma pres_all l : (forall d, In d l -> sets d) -> pres (fun s => handle_all s l).
Proof.
  induction l as [|d r IH]; intros H; [apply (pres_id (fun s => s)); auto|]. cbn [SideModel.handle_all].
  apply pres_then; [apply pres_handle, H; left; reflexivity | apply IH; intros e He; apply H; right; exact He].
Qed.
End Invariant.
Lemma minify_all (J : state -> list event -> Prop) c l : pres J flush ->
  (forall d, In d l -> sets J d) -> J (State (none_phys V) (none_log V R) false c) [] ->
  exists s, J s (snd (minify c l)).
Proof.
  intros Jf Js J0. unfold SideModel.minify.
  pose proof (pres_then J _ _ (pres_all J Jf l Js) Jf _ _ J0) as H. cbn [app] in H. eauto.
Qed.

(** ** Nothing is moved when logical properties are supported *)
Definition only_main (l : list event) : Prop := forall a b, ~ In (Dir a b) l.
Lemma only_main_app l m : only_main l -> only_main m -> only_main (l ++ m).
Proof. intros H1 H2 a b H. apply in_app_or in H. destruct H; [exact (H1 a b H) | exact (H2 a b H)]. Qed.
Lemma only_main_opt {A} (f : A -> sdecl) o : only_main (opt (fun x => Main (f x)) o).
Proof. intros a b H. destruct o; cbn in H; [destruct H as [H|[]]; discriminate H | exact H]. Qed.
Lemma only_main_phys s : only_main (flush_phys V R shc ls s).
Proof.
  unfold flush_phys. destruct (phys s Top), (phys s Right), (phys s Bottom), (phys s Left); repeat apply only_main_app; try apply only_main_opt.
  destruct (_ || _); intros x y H; cbn in H; intuition discriminate.
Qed.
Lemma only_main_side s a b sh : only_main (logical_side V R bs s a b sh).
Proof.
  unfold logical_side. destruct (log s a) as [[]|], (log s b) as [[]|]; try (apply only_main_app; apply only_main_opt).
  destruct bs; [intros x y [H|[]]; discriminate H | apply only_main_app; apply only_main_opt].
Qed.
Lemma only_main_block s : only_main (flush_block V R ls bs s).
Proof. unfold flush_block. destruct ls; [apply only_main_side | apply only_main_app; apply only_main_opt]. Qed.
Lemma mains_map rtl l : only_main l -> mains l = map (seen V R rtl) l.
Proof.
  induction l as [|[d|a b] r IH]; intros H; [reflexivity| |exfalso; apply (H a b); left; reflexivity].
  cbn. f_equal. apply IH. intros a b Hab. apply (H a b). right. exact Hab.
Qed.
Lemma only_dirs l : only_main l -> ltrs l = [] /\ rtls l = [].
Proof.
  induction l as [|[d|a b] r IH]; intros H; [auto| |exfalso; apply (H a b); left; reflexivity].
  cbn. apply IH. intros a b Hab. apply (H a b). right. exact Hab.
Qed.
Lemma supported_main c l : ls = true -> only_main (snd (minify c l)).
Proof.
  intros E. destruct (minify_all (fun _ ev => only_main ev) c l) as [s H]; [| | |exact H].
  - intros s ev Hs. apply only_main_app; [exact Hs|]. unfold SideModel.flush. destruct (has_any s); [|intros a b []]. cbn [snd].
    apply only_main_app; [apply only_main_phys|]. apply only_main_app; [apply only_main_block|]. unfold flush_inline. rewrite E. apply only_main_side.
  - intros d _ s h c' ev Hs. destruct d as [k v|k v|a b|a b|t r b l'|i u]; try exact Hs; try (split; exact Hs).
    destruct i; try exact Hs; (apply only_main_app; [exact Hs | intros x y [H|[]]; discriminate H]).
  - intros a b [].
Qed.

Variable w : writing_mode.
Variable br : browser V R.
Hypothesis veq_eq : forall a b, veq a b = true -> a = b.
Hypothesis br_compat : forall v, compat v = true -> knows br v = true.

Theorem supported_used c l : ls = true -> proper w -> Forall (fair V R shc br) l -> Forall (uniform br) (mains (snd (minify c l))) ->
  (forall x, used w br (mains (snd (minify c l))) x = used w br l x) /\ ltrs (snd (minify c l)) = [] /\ rtls (snd (minify c l)) = [].
Proof.
  intros E P F U. pose proof (supported_main c l E) as M. split; [|apply only_dirs; exact M]. intros x.
  rewrite (mains_map false _ M) in *. unfold used at 1. rewrite (used_give V R w br _ (fun _ => None) x).
  change (run V R w br false (snd (minify c l)) (fun _ => None) x = used w br l x). apply trace_used; try assumption; try congruence.
  apply (proj1 (Forall_map (seen V R false) (uniform br) _)) in U. exact U.
Qed.

(** ** Rules for directions come last *)
Definition dirs (rtl : bool) (l : list event) : list sdecl := if rtl then rtls l else ltrs l.
Definition quiet (rtl : bool) (d : sdecl) : Prop := gives (horizontal rtl) d Left = None /\ gives (horizontal rtl) d Right = None.
Definition inline_only (rtl : bool) (d : sdecl) : Prop := gives (horizontal rtl) d Top = None /\ gives (horizontal rtl) d Bottom = None.
Definition sorted (rtl : bool) (l : list event) : Prop :=
  exists l1 l2, l = l1 ++ l2 /\ only_main l1 /\ (forall d, In (Main d) l2 -> quiet rtl d)
    /\ (forall a b, In (Dir a b) l2 -> inline_only rtl (if rtl then b else a)).
Lemma give_none w' d e x : gives w' d x = None -> give V R w' br d e x = e x.
Proof. intros H. unfold give. rewrite H. destruct (accepts br d); reflexivity. Qed.
Lemma give_all_none w' l : forall e x, (forall d, In d l -> gives w' d x = None) -> give_all V R w' br l e x = e x.
Proof.
  induction l as [|d r IH]; intros e x H; [reflexivity|]. cbn [give_all]. rewrite IH by (intros y Hy; apply H; right; exact Hy).
  apply give_none, H. left. reflexivity.
Qed.
Lemma mains_app l m : mains (l ++ m) = mains l ++ @mains V R m. Proof. apply flat_map_app. Qed.
Lemma dirs_app rtl l m : dirs rtl (l ++ m) = dirs rtl l ++ dirs rtl m. Proof. destruct rtl; apply flat_map_app. Qed.
Lemma dirs_none rtl l : only_main l -> dirs rtl l = [].
Proof. intros H. destruct (only_dirs l H). destruct rtl; assumption. Qed.
Lemma in_dirs rtl l d : In d (dirs rtl l) -> exists a b, In (Dir a b) l /\ d = if rtl then b else a.
Proof.
  unfold dirs, ltrs, rtls. destruct rtl; intros H; apply in_flat_map in H; destruct H as [[|a b] [H1 H2]]; cbn in H2; try tauto; destruct H2 as [<-|[]]; eauto.
Qed.
Lemma in_mains l d : In d (@mains V R l) -> In (Main d) l.
Proof. unfold mains. intros H. apply in_flat_map in H. destruct H as [[|] [H1 H2]]; cbn in H2; [destruct H2 as [<-|[]]; exact H1 | tauto]. Qed.
Lemma split_used rtl l2 x : (forall d, In (Main d) l2 -> quiet rtl d) -> (forall a b, In (Dir a b) l2 -> inline_only rtl (if rtl then b else a)) ->
  forall e, give_all V R (horizontal rtl) br (mains l2 ++ dirs rtl l2) e x = run V R (horizontal rtl) br rtl l2 e x.
Proof.
  intros Hm Hd e. rewrite give_all_app. unfold run.
  assert (X : (x = Left \/ x = Right) \/ (x = Top \/ x = Bottom)) by (destruct x; auto).
  destruct X as [X|X].
  - (* only the rules matter *)
    assert (Q : forall d, In (Main d) l2 -> gives (horizontal rtl) d x = None) by (intros d Hx; destruct (Hm d Hx); destruct X; subst; assumption).
    revert e. clear Hm Hd X. induction l2 as [|[d|a b] r IH]; intros e.
    + destruct rtl; reflexivity.
    + cbn [mains flat_map app map seen give_all]. fold (@mains V R r).
      replace (dirs rtl (Main d :: r)) with (dirs rtl r) by (destruct rtl; reflexivity). apply IH. intros y Hy. apply Q. right. exact Hy.
    + cbn [mains flat_map app map seen give_all]. fold (@mains V R r).
      replace (dirs rtl (Dir a b :: r)) with ((if rtl then b else a) :: dirs rtl r) by (destruct rtl; reflexivity). cbn [give_all].
      rewrite <- IH by (intros y Hy; apply Q; right; exact Hy).
      assert (G : forall l (e1 e2 : side -> option (cell V R)), e1 x = e2 x -> give_all V R (horizontal rtl) br l e1 x = give_all V R (horizontal rtl) br l e2 x).
      { clear. induction l as [|d r IH]; intros e1 e2 H; [exact H|]. cbn [give_all]. apply IH. unfold give. rewrite H. reflexivity. }
      apply G. assert (Q' : forall y, In y (mains r) -> gives (horizontal rtl) y x = None) by (intros y Hy; apply Q; right; apply in_mains; exact Hy).
      unfold give at 1. rewrite give_all_none by exact Q'. rewrite give_all_none by exact Q'. unfold give. reflexivity.
  - rewrite give_all_none.
    2:{ intros d Hx. apply in_dirs in Hx. destruct Hx as [a [b [Hx ->]]]. destruct (Hd a b Hx). destruct X; subst; assumption. }
    assert (Q : forall a b, In (Dir a b) l2 -> gives (horizontal rtl) (if rtl then b else a) x = None) by (intros a b Hx; destruct (Hd a b Hx); destruct X; subst; assumption).
    revert e. clear Hm Hd X. induction l2 as [|[d|a b] r IH]; intros e; [reflexivity| |].
    + cbn [mains flat_map app map seen give_all]. apply IH. intros a b Hx. apply Q. right. exact Hx.
    + cbn [mains flat_map app map seen give_all]. fold (@mains V R r).
      rewrite IH by (intros a' b' Hx; apply Q; right; exact Hx).
      assert (G : forall l (e1 e2 : side -> option (cell V R)), e1 x = e2 x -> give_all V R (horizontal rtl) br l e1 x = give_all V R (horizontal rtl) br l e2 x).
      { clear. induction l as [|d r IH]; intros e1 e2 H; [exact H|]. cbn [give_all]. apply IH. unfold give. rewrite H. reflexivity. }
      apply G. symmetry. apply give_none. apply (Q a b). left. reflexivity.
Qed.
Lemma sorted_used rtl l e x : sorted rtl l ->
  give_all V R (horizontal rtl) br (mains l ++ dirs rtl l) e x = run V R (horizontal rtl) br rtl l e x.
Proof.
  intros [l1 [l2 [-> [H1 [H2 H3]]]]]. rewrite mains_app, dirs_app, (dirs_none rtl l1 H1). cbn [app]. rewrite <- app_assoc, give_all_app, run_app.
  rewrite split_used by assumption. apply run_ext. intros y. unfold run. rewrite <- (mains_map rtl l1 H1). reflexivity.
Qed.

(** Blocks whose inline declarations come last *)
Definition from_list (A : list V) (o : option (lval V R)) : Prop := forall a, o = Some (LVal a) -> In a A.
Definition Jpre (s : state) (ev : list event) : Prop := only_main ev /\ log s InlineStart = None /\ log s InlineEnd = None.
Definition Jpost (rtl : bool) (A B : list V) (s : state) (ev : list event) : Prop :=
  (only_main ev \/ (sorted rtl ev /\ phys s Left = None /\ phys s Right = None))
  /\ from_list A (log s InlineStart) /\ from_list B (log s InlineEnd).
Lemma flush_pre : ls = false -> pres Jpre flush.
Proof.
  intros E s ev [H1 [H2 H3]]. unfold SideModel.flush. destruct (has_any s); cbn [fst snd].
  - split; [|split; reflexivity]. apply only_main_app; [exact H1|]. apply only_main_app; [apply only_main_phys|].
    apply only_main_app; [apply only_main_block|]. unfold flush_inline. rewrite E. unfold same_inline. rewrite H2, H3. intros a b [].
  - rewrite app_nil_r. repeat split; assumption.
Qed.
Lemma quiet_block rtl s d : ls = false -> In (Main d) (flush_block V R ls bs s) -> quiet rtl d.
Proof.
  intros E. unfold flush_block. rewrite E. intros H. apply in_app_or in H.
  destruct (log s BlockStart) as [[]|], (log s BlockEnd) as [[]|]; cbn in H; intuition; try discriminate;
    match goal with H : Main _ = Main _ |- _ => injection H as <- end; split; reflexivity.
Qed.
Lemma quiet_phys rtl s d : phys s Left = None -> phys s Right = None -> In (Main d) (flush_phys V R shc ls s) -> quiet rtl d.
Proof.
  intros E1 E2. unfold flush_phys. rewrite E1, E2. destruct (phys s Top), (phys s Bottom); cbn; intros H; intuition; try discriminate;
    match goal with H : Main _ = Main _ |- _ => injection H as <- end; split; reflexivity.
Qed.
Lemma flush_post rtl A B : ls = false -> (forall a, In a A -> ~ In a B) -> pres (Jpost rtl A B) flush.
Proof.
  intros E D s ev [H1 [H2 H3]]. unfold SideModel.flush. destruct (has_any s); cbn [fst snd]; [|rewrite app_nil_r; repeat split; assumption].
  split; [|split; intros a H; discriminate H]. right. split; [|split; reflexivity].
  assert (N : same_inline V R veq s = false).
  { unfold same_inline. destruct (log s InlineStart) as [[a|]|] eqn:Ea; try reflexivity. destruct (log s InlineEnd) as [[b|]|] eqn:Eb; try reflexivity.
    destruct (veq a b) eqn:Ev; [|reflexivity]. apply veq_eq in Ev. subst b. exfalso. exact (D a (H2 a eq_refl) (H3 a eq_refl)). }
  assert (I1 : forall d, ~ In (Main d) (flush_inline V R veq ls bs s)).
  { unfold flush_inline. rewrite E, N. intros d H. apply in_app_or in H.
    destruct (log s InlineStart) as [[]|], (log s InlineEnd) as [[]|]; cbn in H; intuition discriminate. }
  assert (I2 : forall a b, In (Dir a b) (flush_inline V R veq ls bs s) -> inline_only rtl (if rtl then b else a)).
  { unfold flush_inline. rewrite E, N. intros a b H. apply in_app_or in H.
    destruct (log s InlineStart) as [[]|], (log s InlineEnd) as [[]|]; cbn in H; intuition; try discriminate;
      match goal with H : Dir _ _ = Dir _ _ |- _ => injection H as <- <- end; destruct rtl; split; reflexivity. }
  destruct H1 as [H1|[[l1 [l2 [-> [S1 [S2 S3]]]]] [P1 P2]]].
  - exists (ev ++ flush_phys V R shc ls s ++ flush_block V R ls bs s), (flush_inline V R veq ls bs s). rewrite <- !app_assoc. split; [reflexivity|].
    split; [apply only_main_app; [exact H1 | apply only_main_app; [apply only_main_phys | apply only_main_block]]|]. split; [intros d Hd; exfalso; exact (I1 d Hd) | exact I2].
  - exists l1, (l2 ++ flush_phys V R shc ls s ++ flush_block V R ls bs s ++ flush_inline V R veq ls bs s). rewrite <- !app_assoc. split; [reflexivity|].
    split; [exact S1|]. split.
    + intros d Hd. apply in_app_or in Hd. destruct Hd as [Hd|Hd]; [exact (S2 d Hd)|]. apply in_app_or in Hd. destruct Hd as [Hd|Hd]; [exact (quiet_phys rtl s d P1 P2 Hd)|].
      apply in_app_or in Hd. destruct Hd as [Hd|Hd]; [exact (quiet_block rtl s d E Hd) | exfalso; exact (I1 d Hd)].
    + intros a b Hd. apply in_app_or in Hd. destruct Hd as [Hd|Hd]; [exact (S3 a b Hd)|]. apply in_app_or in Hd. destruct Hd as [Hd|Hd]; [exfalso; exact (only_main_phys s a b Hd)|].
      apply in_app_or in Hd. destruct Hd as [Hd|Hd]; [exfalso; exact (only_main_block s a b Hd) | exact (I2 a b Hd)].
Qed.
Lemma sets_pre d : is_inline d = false -> sets Jpre d.
Proof.
  intros H s h c ev [H1 [H2 H3]]. destruct d as [k v|k v|a b|a b|t r b l|i u]; cbn [is_inline] in H; try discriminate H.
  - repeat split; assumption.
  - destruct k; try discriminate H; (split; [exact H1|]; split; assumption).
  - split; (split; [exact H1|]; split; assumption).
  - split; [exact H1|]. split; reflexivity.
  - assert (M : only_main (ev ++ [Main (DRaw i u)])) by (apply only_main_app; [exact H1 | intros x y [E|[]]; discriminate E]).
    destruct i as [k|k| | |]; try discriminate H; try (repeat split; assumption). destruct k; try discriminate H; (split; [exact H1|]; split; assumption).
Qed.
Lemma sets_post rtl A B d : sets_sides d = false -> (forall a, In a (inline_start d) -> In a A) -> (forall a, In a (inline_end d) -> In a B) ->
  sets (Jpost rtl A B) d.
Proof.
  intros H HA HB s h c ev [H1 [H2 H3]].
  assert (Raw : forall u i, (i = ISide Top \/ i = ISide Bottom \/ i = IBlock) -> Jpost rtl A B s (ev ++ [Main (DRaw i u)])).
  { intros u i Hi. split; [|split; assumption]. destruct H1 as [H1|[[l1 [l2 [-> [S1 [S2 S3]]]]] P]].
    - left. apply only_main_app; [exact H1 | intros x y [E|[]]; discriminate E].
    - right. split; [|exact P]. exists l1, (l2 ++ [Main (DRaw i u)]). rewrite <- app_assoc. split; [reflexivity|]. split; [exact S1|]. split.
      + intros d0 Hd. apply in_app_or in Hd. destruct Hd as [Hd|[Hd|[]]]; [exact (S2 d0 Hd)|]. injection Hd as <-.
        destruct Hi as [-> |[-> | ->]]; split; reflexivity.
      + intros a b Hd. apply in_app_or in Hd. destruct Hd as [Hd|[Hd|[]]]; [exact (S3 a b Hd) | discriminate Hd]. }
  destruct d as [k v|k v|a b|a b|t r b l|i u]; cbn [sets_sides inline_start inline_end] in *; try discriminate H.
  - destruct k; try discriminate H; (split; [|split; assumption]; exact H1).
  - destruct k; (split; [exact H1|]; split; try assumption); intros a E; cbn in E; injection E as <-; [apply HA | apply HB]; left; reflexivity.
  - split; (split; [exact H1|]; split; assumption).
  - split; (split; [exact H1|]; split; try assumption); intros x E; cbn in E; injection E as <-; [apply HA | apply HB]; left; reflexivity.
  - destruct i as [k|k| | |]; try discriminate H.
    + destruct k; try discriminate H; apply Raw; auto.
    + destruct k; (split; [exact H1|]; split; try assumption); intros x E; discriminate E.
    + apply Raw. auto.
Qed.
Lemma handle_all_app l m : forall s, handle_all s (l ++ m) = then_ V R (handle_all s l) (fun s => handle_all s m).
Proof.
  induction l as [|d r IH]; intros s; [cbn [app SideModel.handle_all then_]; destruct (handle_all s m); reflexivity|].
  cbn [app SideModel.handle_all]. destruct (handle s d) as [s1 e1]. cbn [then_]. rewrite IH. destruct (handle_all s1 r) as [s2 e2].
  cbn [then_]. destruct (handle_all s2 m) as [s3 e3]. cbn [then_]. rewrite app_assoc. reflexivity.
Qed.
Lemma inline_last_sorted rtl c l : ls = false -> inline_last l -> sorted rtl (snd (minify c l)).
Proof.
  intros E [pre [post [-> [H1 [H2 H3]]]]]. unfold SideModel.minify. rewrite handle_all_app.
  pose proof (pres_all Jpre (flush_pre E) pre (fun d Hd => sets_pre d (H1 d Hd)) (State (none_phys V) (none_log V R) false c) []
                (conj (fun a b (H : In (Dir a b) []) => H) (conj eq_refl eq_refl))) as P1.
  cbn [app] in P1. destruct (handle_all (State _ _ _ _) pre) as [s1 e1]. cbn [fst snd] in P1. destruct P1 as [P1 [P2 P3]].
  set (A := flat_map (@inline_start V R) post). set (B := flat_map (@inline_end V R) post).
  assert (D : forall a, In a A -> ~ In a B).
  { intros a Ha Hb. apply in_flat_map in Ha, Hb. destruct Ha as [d [Hd Ha]], Hb as [f [Hf Hb]]. exact (H3 d f a Hd Hf Ha Hb). }
  assert (J1 : Jpost rtl A B s1 e1) by (split; [left; exact P1 | rewrite P2, P3; split; intros a X; discriminate X]).
  assert (S : forall d, In d post -> sets (Jpost rtl A B) d).
  { intros d Hd. apply sets_post; [exact (H2 d Hd) | |]; intros a Ha; apply in_flat_map; eauto. }
  pose proof (pres_all _ (flush_post rtl A B E D) post S s1 e1 J1) as P4. cbn [then_].
  destruct (handle_all s1 post) as [s2 e2]. cbn [fst snd then_] in *. pose proof (flush_post rtl A B E D s2 _ P4) as P5.
  destruct (flush s2) as [s3 e3]. cbn [fst snd] in *. destruct P5 as [P5 _]. destruct P5 as [P5|[P5 _]]; [|exact P5].
  exists ((e1 ++ e2) ++ e3), []. rewrite app_nil_r. split; [reflexivity|]. split; [exact P5|]. split; [intros ? [] | intros ? ? []].
Qed.
Theorem compiled_used rtl c l : ls = false -> (inline_last l \/ dirs rtl (snd (minify c l)) = []) ->
  Forall (fair V R shc br) l -> Forall (uniform br) (mains (snd (minify c l))) ->
  forall x, used (horizontal rtl) br (mains (snd (minify c l)) ++ dirs rtl (snd (minify c l))) x = used (horizontal rtl) br l x.
Proof.
  intros E C F U x. unfold used at 1. rewrite (used_give V R (horizontal rtl) br _ (fun _ => None) x).
  assert (Dd : forall a b, In (Dir a b) (snd (minify c l)) -> exists y s s', a = pdecl V R s y /\ b = pdecl V R s' y).
  { destruct (minify_all (fun _ ev => forall a b, In (Dir a b) ev -> exists y s s', a = pdecl V R s y /\ b = pdecl V R s' y) c l) as [s H]; [| | |exact H].
    - intros s ev Hs. unfold SideModel.flush. destruct (has_any s); [|cbn [fst snd]; rewrite app_nil_r; exact Hs]. cbn [fst snd].
      intros a b H. apply in_app_or in H. destruct H as [H|H]; [exact (Hs a b H)|]. apply in_app_or in H. destruct H as [H|H]; [exfalso; exact (only_main_phys s a b H)|].
      apply in_app_or in H. destruct H as [H|H]; [exfalso; exact (only_main_block s a b H)|]. unfold flush_inline in H. rewrite E in H.
      destruct (same_inline V R veq s), (log s InlineStart), (log s InlineEnd); cbn in H; intuition; try discriminate;
        match goal with H : Dir _ _ = Dir _ _ |- _ => injection H as <- <- end; eauto.
    - intros d _ s h c' ev Hs. destruct d as [k v|k v|a b|a b|t r b l'|i u]; try exact Hs; try (split; exact Hs).
      destruct i; try exact Hs; intros a b H; apply in_app_or in H; destruct H as [H|[H|[]]]; (exact (Hs a b H) || discriminate H).
    - intros a b []. }
  assert (U' : Forall (uni_ev V R br rtl) (snd (minify c l))).
  { apply Forall_forall. intros [d|a b] H; unfold uni_ev; cbn [seen].
    - rewrite Forall_forall in U. apply U. unfold mains. apply in_flat_map. exists (Main d). split; [exact H | left; reflexivity].
    - destruct (Dd a b H) as [y [s [s' [-> ->]]]]. destruct rtl, y; exact I. }
  assert (W : ls = false -> horizontal rtl = horizontal rtl) by reflexivity.
  rewrite <- (trace_used V R veq compat shc ls bs (horizontal rtl) br veq_eq (horizontal_proper rtl) br_compat rtl W c l F U').
  destruct C as [C|C]; [apply sorted_used, inline_last_sorted; assumption|].
  rewrite C, app_nil_r.
  assert (M : only_main (snd (minify c l))).
  { intros a b H. assert (In (if rtl then b else a) (dirs rtl (snd (minify c l)))) as X; [|rewrite C in X; exact X].
    destruct rtl; apply in_flat_map; exists (Dir a b); split; auto; left; reflexivity. }
  rewrite (mains_map rtl _ M). reflexivity.
Qed.

(** Browsers that know every value *)
Lemma modern_fair l : modern br -> Forall (fair V R shc br) l.
Proof.
  intros [H1 H2]. apply Forall_forall. intros d _. split; [destruct d; cbn [uniform]; rewrite ?H1; auto|]. destruct d; auto. right. cbn [accepts]. rewrite !H1. reflexivity.
Qed.
Lemma modern_uniform l : modern br -> Forall (uniform br) l.
Proof. intros [H1 H2]. apply Forall_forall. intros d _. destruct d; cbn [uniform]; rewrite ?H1; auto. Qed.

(** Normal and important declarations *)
Lemma used_over l : forall o x, used_from o w br l x = match used w br l x with Some c => Some c | None => o end.
Proof.
  unfold used. induction l as [|d r IH]; intros o x; [reflexivity|]. cbn [used_from]. rewrite IH. symmetry. rewrite IH. symmetry.
  destruct (used_from None w br r x); [reflexivity|]. destruct (accepts br d), (gives w d x); reflexivity.
Qed.
Lemma used_from_app l m : forall o x, used_from o w br (l ++ m) x = used_from (used_from o w br l x) w br m x.
Proof. induction l as [|d r IH]; intros o x; [reflexivity|]. cbn [app used_from]. apply IH. Qed.
Theorem block_used c ci normal important :
  let r := minify_block V R veq compat shc ls bs c ci normal important in
  ls = true -> proper w -> Forall (fair V R shc br) (normal ++ important) -> Forall (uniform br) (m_normal r ++ m_important r) ->
  (forall x, used_block w br (m_normal r) (m_important r) x = used_block w br normal important x) /\ m_ltr r = [] /\ m_rtl r = [].
Proof.
  cbn zeta. intros E P F U. apply Forall_app in F. destruct F as [F1 F2].
  assert (N : m_normal (minify_block V R veq compat shc ls bs c ci normal important) = mains (snd (minify c normal))).
  { unfold minify_block, SideModel.minify. destruct (handle_all _ important) as [s1 e1]. destruct (handle_all _ normal) as [s2 e2]. cbn [m_normal then_].
    destruct (flush s2). reflexivity. }
  assert (I : m_important (minify_block V R veq compat shc ls bs c ci normal important) = mains (snd (minify ci important))).
  { unfold minify_block, SideModel.minify. destruct (handle_all _ important) as [s1 e1]. destruct (handle_all _ normal) as [s2 e2]. cbn [m_important then_].
    destruct (flush s1). reflexivity. }
  rewrite N, I in *. apply Forall_app in U. destruct U as [U1 U2].
  destruct (supported_used c normal E P F1 U1) as [H1 _]. destruct (supported_used ci important E P F2 U2) as [H2 _]. split.
  - intros x. unfold used_block, used. rewrite !used_from_app, (used_over (mains (snd (minify ci important)))), (used_over important), H2.
    fold (used w br important x). destruct (used w br important x); [reflexivity|]. exact (H1 x).
  - pose proof (supported_main c normal E) as M1. pose proof (supported_main ci important E) as M2.
    unfold SideModel.minify in M1, M2. unfold minify_block. destruct (handle_all _ important) as [s1 e1]. destruct (handle_all _ normal) as [s2 e2].
    cbn [then_ m_ltr m_rtl] in *. destruct (flush s1) as [q1 f1], (flush s2) as [q2 f2]. cbn [snd] in *. apply only_dirs.
    intros a b H. apply in_app_or in H. destruct H as [H|H]; [apply (M2 a b); apply in_or_app; auto|].
    apply in_app_or in H. destruct H as [H|H]; [apply (M1 a b); apply in_or_app; auto|].
    apply in_app_or in H. destruct H as [H|H]; [apply (M1 a b); apply in_or_app; auto | apply (M2 a b); apply in_or_app; auto].
Qed.
End Values.
