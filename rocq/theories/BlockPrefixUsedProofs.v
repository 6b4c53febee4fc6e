(** * What prefixed declarations give in a block *)
From Coq Require Import List Bool PeanoNat Lia.
From Verif Require PrefixSpec PrefixProofs.
From Verif Require Import PrefixModel BlockModel BlockSpec BlockHandlers BlockValueSpec BlockProofs BlockIndexProofs BlockPartProofs BlockBoxProofs BlockPrefixProofs.
Import ListNotations.

(** ** Alone, a handler adds declarations of its own *)
Section Shape.
Context {A R Cond : Type}.
Variable p : part A R Cond.
Notation K := (fun d : decl A R => negb (mine (owns p) d)).
Lemma steps_shape l : Forall (fun a => owns p a = true) l -> forall s ds s' ds', like p s ds s' ds' ->
  let '(t, e, x) := steps (of p) s ds l in apart K ds e /\ exists t' e', like p t e t' e'.
Proof.
  induction 1 as [|a l O F IH]; intros s ds s' ds' L; cbn [steps]; [split; [apply apart_refl|eauto]|].
  pose proof (handles p s ds s' ds' a L O) as H. destruct (hhandle (of p) s ds a) as [[[t e] x]|], (hhandle (of p) s' ds' a) as [[[t' e'] x']|]; try contradiction.
  - destruct H as [H1 [H2 _]]. specialize (IH _ _ _ _ H1). destruct (steps (of p) t e l) as [[t2 e2] x2]. destruct IH as [I1 I2].
    split; [exact (apart_trans K ds e e2 H2 I1)|exact I2].
  - specialize (IH _ _ _ _ H). destruct (steps (of p) s (ds ++ [Plain a]) l) as [[t2 e2] x2]. destruct IH as [I1 I2]. split; [|exact I2].
    refine (apart_trans K ds _ e2 _ I1). apply apart_app. constructor; [|constructor]. cbn. rewrite O. reflexivity.
Qed.
Lemma alone_shape l s ds : Forall (fun a => owns p a = true) l -> idle p s /\ ds = [] \/ s = hstart (of p) /\ (exists kw, ds = [All kw]) ->
  exists m, fst (alone (of p) s ds l) = ds ++ map Plain m.
Proof.
  intros F B. assert (L : like p s ds s ds).
  { destruct B as [[I ->]|[-> [kw ->]]]; [exact (like_idle p s I)|exact (like_start p [All kw])]. }
  pose proof (steps_shape l F _ _ _ _ L) as H. unfold alone. destruct (steps (of p) s ds l) as [[t e] x]. destruct H as [H1 [t' [e' H2]]].
  pose proof (finishes p _ _ _ _ H2) as H3. destruct (hfinish (of p) t e) as [[t2 e2] x2], (hfinish (of p) t' e') as [[t3 e3] x3]. destruct H3 as [_ [H3 _]]. cbn [fst].
  pose proof (apart_trans K _ _ _ H1 H3) as H.
  assert (Q : forall m : list (decl A R), Forall (fun d => K d = false) m -> exists n, m = map Plain n).
  { clear. intros m. induction 1 as [|d m E G [n ->]]; [exists []; reflexivity|]. destruct d as [a| | | | |]; try discriminate E. exists (a :: n). reflexivity. }
  destruct B as [[_ ->]|[_ [kw ->]]].
  - inversion H; subst. apply Q. assumption.
  - assert (G : exists m, e2 = All kw :: m /\ apart K [] m).
    { inversion H; subst; try discriminate. eauto. }
    destruct G as [m [-> G]]. inversion G; subst. destruct (Q m) as [n ->]; [assumption|]. exists n. reflexivity.
Qed.
End Shape.

Section Prefix.
Context {V R Cond : Type}.
Variable c : config V R Cond.
Notation A := (prop V R).
Notation decl := (decl A R).
Definition to_p (h : bool) (d : decl) : PrefixModel.decl V R := match d with Plain a => to_prefix h a | _ => Other 0 end.
Lemma map_replace h ds i d : map (to_p h) (replace ds i d) = PrefixModel.replace V R (map (to_p h) ds) i (to_p h d).
Proof. unfold replace, PrefixModel.replace. rewrite map_app, firstn_map. cbn [map]. rewrite skipn_map. reflexivity. Qed.

Notation phandle := (prefix_handle V R (veq c) (prefix_targets c)).
Lemma prefix_sim l : forall s ds, let '(t, e, _) := steps (prefix c) s ds l in
  fold_left phandle (map (to_prefix false) l) (PState s (map (to_p false) ds)) = PState t (map (to_p false) e).
Proof.
  induction l as [|a l IH]; intros s ds; [reflexivity|]. cbn [steps map fold_left].
  assert (Q : phandle (PState s (map (to_p false) ds)) (to_prefix false a) =
    match hhandle (prefix c) s ds a with Some (t, e, _) => PState t (map (to_p false) e) | None => PState s (map (to_p false) (ds ++ [Plain a])) end).
  { assert (U : forall (s : nat -> option nat) k v p, push_parsed V R (prefix_targets c) (PState s (map (to_p false) ds)) k v p =
      let '(t, e, _) := push_prefixed c s ds k v p in PState t (map (to_p false) e)).
    { intros s0 k v p. unfold push_parsed, push_prefixed. cbn [index dest]. rewrite map_length, map_app. reflexivity. }
    destruct a as [f d|f d|f d|[] k v p|[] k u p|n u]; cbn [to_prefix eqb prefix_handle hhandle prefix index dest]; rewrite ?map_app; try reflexivity.
    destruct (s k) as [i|]; [|exact (U s k v p)]. rewrite nth_error_map. destruct (nth_error ds i) as [[b| | | | |]|]; cbn [option_map to_p]; try exact (U s k v p).
    destruct b as [| | |[] k' cur ps|[] k' cur ps|]; cbn [to_prefix eqb]; try exact (U s k v p).
    destruct (Nat.eqb k' k && _); [|exact (U s k v p)]. rewrite map_replace. reflexivity. }
  rewrite Q. destruct (hhandle (prefix c) s ds a) as [[[t e] x]|]; [|exact (IH s _)]. specialize (IH t e). destruct (steps (prefix c) t e l) as [[t2 e2] x2]. exact IH.
Qed.
Notation fhandle := (fallback_handle V R (prefix_targets c) (compat c) (fallbacks c) (has_prefix c)).
Lemma fallback_sim l : forall s ds, let '(t, e, _) := steps (fallback c) s ds l in
  fold_left fhandle (map (to_prefix true) l) (PState s (map (to_p true) ds)) = PState t (map (to_p true) e).
Proof.
  induction l as [|a l IH]; intros s ds; [reflexivity|]. cbn [steps map fold_left].
  assert (Q : fhandle (PState s (map (to_p true) ds)) (to_prefix true a) =
    match hhandle (fallback c) s ds a with Some (t, e, _) => PState t (map (to_p true) e) | None => PState s (map (to_p true) (ds ++ [Plain a])) end).
  { destruct a as [f d|f d|f d|[] k v p|[] k u p|n u]; cbn [to_prefix eqb fallback_handle hhandle fallback index dest]; rewrite ?map_app; try reflexivity.
    - destruct (s k) as [i|].
      + destruct (compat c v); [rewrite map_replace; reflexivity|rewrite map_app, map_length; reflexivity].
      + destruct (fallbacks c v) as [m v']. rewrite !map_app, !app_length, !map_length, map_map. reflexivity.
    - unfold set_fallback. cbn [index dest]. destruct (s k) as [i|]; [rewrite map_replace; reflexivity|rewrite map_app, map_length; reflexivity]. }
  rewrite Q. destruct (hhandle (fallback c) s ds a) as [[[t e] x]|]; [|exact (IH s _)]. specialize (IH t e). destruct (steps (fallback c) t e l) as [[t2 e2] x2]. exact IH.
Qed.

(** What plain declarations give *)
Section Used.
Context {W : Type}.
Variable br : PrefixSpec.browser V R W.
Variable h : bool.
Variable k : nat.
Variable q : pfx.
Notation pused := (PrefixSpec.used_from PrefixSpec.alone br k q).
Lemma pused_over l : forall o, pused o l = match pused None l with Some x => Some x | None => o end.
Proof.
  unfold PrefixSpec.used_from. induction l as [|d l IH]; intros o; [reflexivity|]. cbn [fold_left]. rewrite IH. symmetry. rewrite IH. destruct (fold_left _ l None); [reflexivity|].
  destruct (PrefixSpec.gives _ _ _ _ _); reflexivity.
Qed.
Lemma pused_cons d l : pused None (d :: l) = match pused None l with Some x => Some x | None => PrefixSpec.gives PrefixSpec.alone br k q d end.
Proof.
  unfold PrefixSpec.used_from at 1. cbn [fold_left]. change (fold_left _ l ?o) with (pused o l). rewrite pused_over. destruct (pused None l); [reflexivity|].
  destruct (PrefixSpec.gives _ _ _ _ _); reflexivity.
Qed.
Lemma used_plain m : forall o, used_from (prefix_gives h br k q) o (map Plain m : list decl) = match pused None (map (to_prefix h) m) with Some x => Given x | None => o end.
Proof.
  unfold used_from. induction m as [|a m IH]; intros o; [reflexivity|]. cbn [map fold_left used_step]. rewrite IH, pused_cons. unfold prefix_gives.
  destruct (pused None (map (to_prefix h) m)); [reflexivity|]. destruct (PrefixSpec.gives _ _ _ _ _); reflexivity.
Qed.
Lemma used_base m n (bs : list decl) o : pused None (map (to_prefix h) m) = pused None (map (to_prefix h) n) ->
  used_from (prefix_gives h br k q) o (bs ++ map Plain m) = used_from (prefix_gives h br k q) o (bs ++ map Plain n).
Proof.
  intros E. unfold used_from. rewrite !fold_left_app. change (used_from (prefix_gives h br k q) (used_from (prefix_gives h br k q) o bs) (map Plain m : list decl) =
    used_from (prefix_gives h br k q) (used_from (prefix_gives h br k q) o bs) (map Plain n)). rewrite !used_plain, E. reflexivity.
Qed.
(** An [all] in front *)
Lemma front_used (bs : list decl) l : (bs = [] \/ exists kw, bs = [All kw]) -> pused None (map (to_p h) bs ++ l) = pused None l.
Proof. intros [->|[kw ->]]; reflexivity. Qed.
End Used.

Lemma map_plain h m : map (to_p h) (map Plain m) = map (to_prefix h) m.
Proof. rewrite map_map. reflexivity. Qed.

Section Keeps.
Context {W : Type}.
Variable br : PrefixSpec.browser V R W.
Variable k : nat.
Variable q : pfx.
Lemma prefix_keeps l : (forall a b, veq c a b = true <-> a = b) -> needed (prefix_targets c) = None /\ (included (prefix_targets c) = false \/ excluded (prefix_targets c) = true) ->
  PrefixSpec.modern br -> (forall v v', PrefixSpec.value br v = PrefixSpec.value br v' -> v = v') ->
  Forall (fun a => prefix_owns false a = true) l ->
  Forall (PrefixSpec.written k) (map (to_prefix false) l) -> PrefixSpec.steady PrefixSpec.alone br k (map (to_prefix false) l) ->
  keeps (prefix_part c) (prefix_gives false br k q) l.
Proof.
  intros Hv Ht Hm Hd F Hw St s ds o B _. destruct (alone_shape (prefix_part c) l s ds F B) as [m E]. rewrite E. apply used_base.
  change (of (prefix_part c)) with (prefix c) in *. assert (E2 : snd (fst (steps (prefix c) s ds l)) = ds ++ map Plain m).
  { unfold alone in E. destruct (steps (prefix c) s ds l) as [[t e] x]. exact E. }
  pose proof (prefix_sim l s ds) as Sim. destruct (steps (prefix c) s ds l) as [[t e] x]. cbn [fst snd] in E2. subst e. rewrite map_app, map_plain in Sim.
  assert (Bs : ds = [] \/ exists kw, ds = [All kw]) by (destruct B as [[_ H]|[_ H]]; auto).
  assert (M : prefix_minify V R (veq c) (prefix_targets c) s (map (to_p false) ds ++ map (to_prefix false) l) = map (to_p false) ds ++ map (to_prefix false) m).
  { unfold prefix_minify. rewrite fold_left_app.
    assert (X : fold_left phandle (map (to_p false) ds) (PState s []) = PState s (map (to_p false) ds)) by (destruct Bs as [->|[kw ->]]; reflexivity).
    rewrite X, Sim. reflexivity. }
  pose proof (PrefixProofs.steady_used V R (veq c) Hv (prefix_targets c) Ht W br Hm Hd s k (map (to_p false) ds ++ map (to_prefix false) l) q) as U.
  rewrite M, !(front_used br false k q ds _ Bs) in U. apply U.
  - apply Forall_app. split; [|exact Hw]. destruct Bs as [->|[kw ->]]; repeat constructor.
  - destruct Bs as [->|[kw ->]]; [exact St|]. cbn [map to_p app]. intros l1 v p l2 El. destruct l1 as [|d l1]; [discriminate El|]. injection El as <- El.
    exact (St l1 v p l2 El).
Qed.
Lemma fallback_keeps l : (forall v, compat c v = true -> PrefixSpec.knows br v = true) -> (forall u, PrefixSpec.knows_raw br u = true) ->
  (forall v, fst (fallbacks c v) = [] \/ PrefixSpec.knows br v = true) ->
  (forall v, PrefixSpec.knows br (snd (fallbacks c v)) = PrefixSpec.knows br v /\ PrefixSpec.value br (snd (fallbacks c v)) = PrefixSpec.value br v) ->
  PrefixSpec.proper_table (prefix_targets c) ->
  Forall (fun a => prefix_owns true a = true) l -> Forall (PrefixSpec.unprefixed k) (map (to_prefix true) l) ->
  keeps (fallback_part c) (prefix_gives true br k NoPrefix) l.
Proof.
  intros Hc Hr Hf Hs Ht F Hu s ds o B _. destruct (alone_shape (fallback_part c) l s ds F B) as [m E]. rewrite E. apply used_base.
  change (of (fallback_part c)) with (fallback c) in *. assert (E2 : snd (fst (steps (fallback c) s ds l)) = ds ++ map Plain m).
  { unfold alone in E. destruct (steps (fallback c) s ds l) as [[t e] x]. exact E. }
  pose proof (fallback_sim l s ds) as Sim. destruct (steps (fallback c) s ds l) as [[t e] x]. cbn [fst snd] in E2. subst e. rewrite map_app, map_plain in Sim.
  assert (Bs : ds = [] \/ exists kw, ds = [All kw]) by (destruct B as [[_ H]|[_ H]]; auto).
  assert (S0 : s = fun _ => None). { destruct B as [[H _]|[H _]]; exact H. }
  assert (M : fallback_minify V R (prefix_targets c) (compat c) (fallbacks c) (has_prefix c) (map (to_p true) ds ++ map (to_prefix true) l) = map (to_p true) ds ++ map (to_prefix true) m).
  { unfold fallback_minify. rewrite fold_left_app, <- S0.
    assert (X : fold_left fhandle (map (to_p true) ds) (PState s []) = PState s (map (to_p true) ds)) by (destruct Bs as [->|[kw ->]]; reflexivity).
    rewrite X, Sim. reflexivity. }
  pose proof (PrefixProofs.fallback_used V R (prefix_targets c) (compat c) (fallbacks c) (has_prefix c) W br Hc Hr Hf Hs Ht k (map (to_p true) ds ++ map (to_prefix true) l)) as U.
  rewrite M in U. cbv beta in U. rewrite !(front_used br true k NoPrefix ds _ Bs) in U. apply U.
  apply Forall_app. split; [|exact Hu]. destruct Bs as [->|[kw ->]]; repeat constructor.
Qed.
End Keeps.
End Prefix.
