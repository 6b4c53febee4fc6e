(** * The modelled handlers mind their own business *)
From Coq Require Import List Bool PeanoNat Lia.
From Verif Require SideModel ShortModel.
From Verif Require Import PrefixModel BlockModel BlockSpec BlockHandlers BlockProofs BlockIndexProofs.
Import ListNotations.

(** ** Handlers that only push *)
Section Pusher.
Context {V R Cond S D : Type}.
Notation A := (prop V R).
Notation decl := (decl A R).
Variable start : S.
Variable view : A -> option D.
Variable wrap : D -> A.
Variable step : S -> D -> S * list D * list (place Cond * D).
Variable fin : S -> S * list D * list (place Cond * D).
Variable inv ready : S -> Prop.
Hypothesis view_wrap : forall d, view (wrap d) = Some d.
Hypothesis wrap_view : forall a d, view a = Some d -> a = wrap d.
Hypothesis ready_start : ready start.
Hypothesis ready_inv : forall s, ready s -> inv s.
Hypothesis step_inv : forall s d, inv s -> inv (fst (fst (step s d))).
Hypothesis fin_ready : forall s, inv s -> ready (fst (fst (fin s))).
Definition viewed (a : A) : bool := match view a with Some _ => true | None => false end.

Lemma pushed_mine out : Forall (fun d : decl => mine viewed d = true) (pushed wrap out).
Proof. unfold pushed. apply Forall_map, Forall_forall. intros d _. unfold mine, viewed. rewrite view_wrap. reflexivity. Qed.
Lemma mine_kept O (d : decl) : mine O d = true -> kept O d = true.
Proof. destruct d; cbn; auto. Qed.
Lemma pushed_kept out : filter (kept viewed) (pushed wrap out : list decl) = pushed wrap out.
Proof. apply filter_all. eapply Forall_impl; [|apply pushed_mine]. intros d. apply mine_kept. Qed.
Lemma pushed_apart ds out : apart (fun d : decl => negb (mine viewed d)) ds (ds ++ pushed wrap out).
Proof. apply apart_app. eapply Forall_impl; [|apply pushed_mine]. cbn. intros d ->. reflexivity. Qed.
Lemma ruled_mine (x : list (place Cond * D)) : Forall (fun r : place Cond * decl => mine viewed (snd r) = true) (ruled wrap x).
Proof. unfold ruled. apply Forall_map, Forall_forall. intros d _. cbn. unfold viewed. rewrite view_wrap. reflexivity. Qed.

Definition pusher_part : part A R Cond.
Proof.
  refine (Part A R Cond viewed (pusher start view wrap step fin) ready (fun s ds s' ds' => s = s' /\ inv s /\ ds' = filter (kept viewed) ds) ready_start _ _ _ _ _ _ _).
  - intros s H. auto.
  - intros ds. auto.
  - intros s ds s' ds' H. apply H.
  - intros s ds s' ds' e [-> [I ->]] F. split; [reflexivity|]. split; [exact I|]. symmetry. apply apart_filter. exact F.
  - intros s ds a O. cbn. unfold viewed in O. destruct (view a); [discriminate|reflexivity].
  - intros s ds s' ds' a [-> [I ->]] O. cbn. unfold viewed in O. destruct (view a) as [d|]; [|discriminate].
    pose proof (step_inv s' d I) as I'. destruct (step s' d) as [[t out] x]. cbn in I'. split; [|split; [apply pushed_apart|split; [reflexivity|apply ruled_mine]]].
    split; [reflexivity|]. split; [exact I'|]. rewrite filter_app, pushed_kept. reflexivity.
  - intros s ds s' ds' [-> [I ->]]. cbn. pose proof (fin_ready s' I) as I'. destruct (fin s') as [[t out] x]. cbn in I'.
    split; [|split; [apply pushed_apart|split; [reflexivity|split; [apply ruled_mine|exact I']]]].
    split; [reflexivity|]. split; [apply ready_inv; exact I'|]. rewrite filter_app, pushed_kept. reflexivity.
Defined.

(** What it does alone *)
Fixpoint runs (s : S) (l : list D) : S * list D * list (place Cond * D) :=
  match l with
  | [] => (s, [], [])
  | d :: r => let '(s1, o1, x1) := step s d in let '(s2, o2, x2) := runs s1 r in (s2, o1 ++ o2, x1 ++ x2)
  end.
Lemma owned_wrap (l : list A) : Forall (fun a => viewed a = true) l -> exists l', l = map wrap l'.
Proof.
  induction 1 as [|a l E F [l' ->]]; [exists []; reflexivity|]. unfold viewed in E. destruct (view a) as [d|] eqn:V'; [|discriminate].
  exists (d :: l'). cbn. rewrite (wrap_view a d V'). reflexivity.
Qed.
Lemma pusher_steps l : forall s ds, steps (pusher start view wrap step fin) s ds (map wrap l) =
  let '(s', o, x) := runs s l in (s', ds ++ pushed wrap o, ruled wrap x).
Proof.
  induction l as [|d l IH]; intros s ds; cbn [map steps runs]; [cbn; rewrite app_nil_r; reflexivity|].
  cbn [hhandle pusher]. rewrite view_wrap. destruct (step s d) as [[s1 o1] x1]. rewrite IH. destruct (runs s1 l) as [[s2 o2] x2].
  unfold pushed, ruled. rewrite !map_app, app_assoc. reflexivity.
Qed.
Lemma pusher_alone l s ds : alone (pusher start view wrap step fin) s ds (map wrap l) =
  let '(s1, o1, x1) := runs s l in let '(_, o2, x2) := fin s1 in (ds ++ pushed wrap (o1 ++ o2), ruled wrap (x1 ++ x2)).
Proof.
  unfold alone. rewrite pusher_steps. destruct (runs s l) as [[s1 o1] x1]. cbn [hfinish pusher]. destruct (fin s1) as [[s2 o2] x2].
  unfold pushed, ruled. rewrite !map_app, app_assoc. reflexivity.
Qed.
Lemma ruled_nil (x : list (place Cond * D)) : (ruled wrap x : rules A R Cond) = [] -> x = [].
Proof. destruct x; [reflexivity|discriminate]. Qed.
(** What its declarations give *)
Section Gives.
Variable C : Type.
Variable gives : A -> option C.
Definition last_given (l : list D) : option C := fold_left (fun o d => match gives (wrap d) with Some c => Some c | None => o end) l None.
Lemma fold_given (l : list D) : forall o, fold_left (fun o d => match gives (wrap d) with Some c => Some c | None => o end) l o =
  match last_given l with Some c => Some c | None => o end.
Proof.
  unfold last_given. induction l as [|d l IH]; intros o; [reflexivity|]. cbn [fold_left]. rewrite IH. symmetry. rewrite IH. destruct (fold_left _ l None); [reflexivity|].
  destruct (gives (wrap d)); reflexivity.
Qed.
Lemma last_cons d l : last_given (d :: l) = match last_given l with Some c => Some c | None => gives (wrap d) end.
Proof. unfold last_given at 1. cbn [fold_left]. rewrite fold_given. destruct (last_given l); [reflexivity|]. destruct (gives (wrap d)); reflexivity. Qed.
Lemma used_pushed l : forall o, used_from gives o (pushed wrap l : list decl) = match last_given l with Some c => Given c | None => o end.
Proof.
  unfold used_from, pushed. induction l as [|d l IH]; intros o; [reflexivity|]. cbn [map fold_left used_step]. rewrite IH, last_cons.
  destruct (last_given l); [reflexivity|]. destruct (gives (wrap d)); reflexivity.
Qed.
Lemma pusher_keeps (l : list A) :
  (forall l' s, l = map wrap l' -> ready s ->
     let '(s1, o1, x1) := runs s l' in let '(_, o2, x2) := fin s1 in
     x1 ++ x2 = [] -> last_given (o1 ++ o2) = last_given l') ->
  Forall (fun a => viewed a = true) l -> keeps pusher_part gives l.
Proof.
  intros H F s ds o B. destruct (owned_wrap l F) as [l' E].
  assert (Hs : ready s). { destruct B as [[I _]|[-> _]]; [exact I|exact ready_start]. }
  specialize (H l' s E Hs). subst l. cbn [of pusher_part]. rewrite pusher_alone. destruct (runs s l') as [[s1 o1] x1]. destruct (fin s1) as [[s2 o2] x2].
  cbn [fst snd]. intros X. apply ruled_nil in X. specialize (H X). unfold used_from at 1 2. rewrite !fold_left_app. fold (used_from gives o ds).
  change (used_from gives (used_from gives o ds) (pushed wrap (o1 ++ o2) : list decl) = used_from gives (used_from gives o ds) (map Plain (map wrap l'))).
  assert (M : map (@Plain A R) (map wrap l') = pushed wrap l') by (unfold pushed; rewrite map_map; reflexivity).
  rewrite M, !used_pushed, H. reflexivity.
Qed.
End Gives.
End Pusher.
