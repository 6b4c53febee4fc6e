(** * Box sides, shorthands and pairs in a block *)
From Coq Require Import List Bool PeanoNat Lia.
From Verif Require SideModel ShortModel SideSpec ShortSpec SideProofs SideOrderProofs ShortProofs.
From Verif Require Import PrefixModel BlockModel BlockSpec BlockHandlers BlockValueSpec BlockProofs BlockPartProofs.
Import ListNotations.

(** Handlers that add no rules *)
Definition quiet {A R Cond} (p : part A R Cond) : Prop :=
  (forall s ds a, match hhandle (of p) s ds a with Some (_, _, x) => x = [] | None => True end)
  /\ forall s ds, snd (hfinish (of p) s ds) = [].
Section Quiet.
Context {A R Cond : Type}.
Variable ctx : context.
Variable unused : nat -> bool.
Variable req : R -> R -> bool.
Variable raw_fallbacks : R -> list (Cond * R) * R.
Lemma quiet_rules (ps : list (part A R Cond)) hs i p l : separate ps -> ready ps hs -> nth_error ps i = Some p -> quiet p ->
  filter (fun r => mine (owns p) (snd r)) (snd (minify ctx unused req raw_fallbacks hs l)) = [].
Proof.
  intros S Y P [Q1 Q2]. destruct (ready_nth ps hs i p Y P) as [s [N Id]]. pose proof (minify_together ctx unused req raw_fallbacks ps hs i p s l S Y P N Id) as M.
  destruct (minify ctx unused req raw_fallbacks hs l) as [[hs' ds] x]. unfold BlockModel.minify in M.
  assert (H : forall m t u, handlers t = [Running (of p) u] -> Forall (fun d => kept (owns p) d = true) m ->
            snd (handle_all ctx unused req raw_fallbacks t m) = [] /\ exists u', handlers (fst (handle_all ctx unused req raw_fallbacks t m)) = [Running (of p) u']).
  { clear - Q1. induction m as [|d m IH]; intros t u E F; [split; [reflexivity|exists u; exact E]|]. cbn [BlockModel.handle_all].
    assert (St : snd (handle ctx unused req raw_fallbacks t d) = [] /\ exists u', handlers (fst (handle ctx unused req raw_fallbacks t d)) = [Running (of p) u']).
    { pose proof (Forall_inv F) as K. destruct d as [a|v|v|kw|k w|name w]; try discriminate K.
      - cbn [BlockModel.handle]. rewrite E, try_single. specialize (Q1 u (decls t) a). destruct (hhandle (of p) u (decls t) a) as [[[u2 e] y]|]; cbn; [subst y; split; [reflexivity|exists u2; reflexivity]|split; [reflexivity|exists u; reflexivity]].
      - cbn. rewrite E. split; [reflexivity|]. exists (hstart (of p)). reflexivity. }
    destruct (handle ctx unused req raw_fallbacks t d) as [t1 y]. cbn [fst snd] in St. destruct St as [-> [u1 E1]]. destruct (IH t1 u1 E1 (Forall_inv_tail F)) as [H1 H2].
    destruct (handle_all ctx unused req raw_fallbacks t1 m) as [t2 z]. cbn [fst snd] in *. subst z. auto. }
  destruct (H (filter (kept (owns p)) l) (begin [Running (of p) s]) s eq_refl) as [H1 [u H2]].
  { apply Forall_forall. intros d I. apply filter_In in I. apply I. }
  destruct (handle_all ctx unused req raw_fallbacks (begin [Running (of p) s]) (filter (kept (owns p)) l)) as [t y]. cbn [fst snd] in *. unfold finish in M. rewrite H2 in M. cbn [finish_all] in M.
  specialize (Q2 u (decls t ++ opt Direction (direction t) ++ opt Bidi (bidi t))). destruct (hfinish (of p) u _) as [[w e] z]. cbn in Q2. subst. apply M.
Qed.
End Quiet.

Section Boxes.
Context {V R Cond : Type}.
Variable c : config V R Cond.
Notation A := (prop V R).

(** ** Box sides *)
Section Sides.
Variable f : nat.
Notation state := (SideModel.state V R).
Notation cleared k := (SideModel.State (SideModel.none_phys V) (SideModel.none_log V R) false k : state).
Notation handle := (SideModel.handle V R (veq c) (compat c) (shorthand_category f) (logical c f) (block c f)).
Notation flush := (SideModel.flush V R (veq c) (shorthand_category f) (logical c f) (block c f)).
Definition side_ready (s : state) : Prop := exists k, s = cleared k.
Definition side_inv (s : state) : Prop := SideModel.has_any s = false -> side_ready s.
Lemma side_then p (g : state -> _) : fst (SideModel.then_ V R p g) = fst (g (fst p)).
Proof. unfold SideModel.then_. destruct p as [s e]. cbn. destruct (g s). reflexivity. Qed.
Lemma side_flush s : side_inv s -> side_ready (fst (flush s)).
Proof. intros I. unfold SideModel.flush. destruct (SideModel.has_any s) eqn:E; [exists (SideModel.cat s); reflexivity|exact (I E)]. Qed.
Lemma side_step s d : side_inv s -> side_inv (fst (handle s d)).
Proof.
  intros I. destruct d as [k v|k v|a b|a b|t r b l|i u]; cbn [SideModel.handle].
  - unfold SideModel.property. rewrite side_then. cbn. intros E. discriminate E.
  - rewrite side_then. unfold SideModel.logical_property. rewrite side_then. cbn. intros E. discriminate E.
  - rewrite side_then. unfold SideModel.logical_property at 1. rewrite side_then. cbn. intros E. discriminate E.
  - rewrite side_then. unfold SideModel.logical_property at 1. rewrite side_then. cbn. intros E. discriminate E.
  - rewrite side_then. cbn. intros E. discriminate E.
  - destruct i; try (rewrite side_then; cbn [fst]; intros _; apply side_flush; exact I).
    unfold SideModel.logical_property. rewrite side_then. cbn. intros E. discriminate E.
Qed.
Definition side_view (a : A) : option (SideModel.sdecl V R) := match a with Sides g d => if Nat.eqb f g then Some d else None | _ => None end.
Lemma side_view_wrap d : side_view (Sides f d) = Some d.
Proof. cbn. rewrite Nat.eqb_refl. reflexivity. Qed.
Lemma side_wrap_view a d : side_view a = Some d -> a = Sides f d.
Proof. destruct a as [g e| | | | |]; cbn; try discriminate. destruct (Nat.eqb f g) eqn:E; [|discriminate]. apply Nat.eqb_eq in E. intros H. injection H as ->. subst. reflexivity. Qed.
Definition side_run (s : state) (d : SideModel.sdecl V R) : state * list (SideModel.sdecl V R) * list (place Cond * SideModel.sdecl V R) :=
  let (s', e) := handle s d in (s', SideModel.mains e, dir_rules e).
Definition side_fin (s : state) : state * list (SideModel.sdecl V R) * list (place Cond * SideModel.sdecl V R) :=
  let (s', e) := flush s in (s', SideModel.mains e, dir_rules e).
Definition sides_part : part A R Cond.
Proof.
  refine (pusher_part (cleared SideModel.Physical) side_view (Sides f) side_run side_fin side_inv side_ready side_view_wrap _ _ _ _).
  - exists SideModel.Physical. reflexivity.
  - intros s H _. exact H.
  - intros s d I. unfold side_run. pose proof (side_step s d I) as H. destruct (handle s d). exact H.
  - intros s I. unfold side_fin. pose proof (side_flush s I) as H. destruct (flush s). exact H.
Defined.
Lemma sides_of : of sides_part = sides c f.
Proof. reflexivity. Qed.

Lemma side_runs l : forall s, runs side_run s l = let (s', e) := SideModel.handle_all V R (veq c) (compat c) (shorthand_category f) (logical c f) (block c f) s l in (s', SideModel.mains e, dir_rules e).
Proof.
  induction l as [|d l IH]; intros s; [reflexivity|]. cbn [runs SideModel.handle_all]. unfold side_run at 1, SideModel.then_. destruct (handle s d) as [s1 e1]. rewrite IH.
  destruct (SideModel.handle_all _ _ _ _ _ _ _ s1 l) as [s2 e2]. unfold SideModel.mains, dir_rules. rewrite !flat_map_app. reflexivity.
Qed.
Lemma side_minify l k : let '(s1, o1, x1) := runs side_run (cleared k) l in let '(_, o2, x2) := side_fin s1 in
  let e := snd (SideModel.minify V R (veq c) (compat c) (shorthand_category f) (logical c f) (block c f) k l) in
  o1 ++ o2 = SideModel.mains e /\ x1 ++ x2 = dir_rules e.
Proof.
  rewrite side_runs. unfold SideModel.minify, SideModel.then_, side_fin. destruct (SideModel.handle_all _ _ _ _ _ _ _ _ l) as [s1 e1]. destruct (flush s1) as [s2 e2].
  cbn [snd]. unfold SideModel.mains, dir_rules. rewrite !flat_map_app. auto.
Qed.
Lemma side_last w (br : SideSpec.browser V R) x l : last_given (Sides f) _ (side_gives f w br x) l = SideSpec.used w br l x.
Proof.
  unfold last_given, SideSpec.used. generalize (@None (SideSpec.cell V R)). induction l as [|d l IH]; intros o; [reflexivity|]. cbn [fold_left SideSpec.used_from]. rewrite IH. f_equal.
  cbn [side_gives]. rewrite Nat.eqb_refl. cbn [andb]. destruct (SideSpec.accepts br d); reflexivity.
Qed.
Lemma dirs_none (e : list (SideModel.event V R)) : dir_rules (Cond := Cond) e = [] -> SideModel.ltrs e = [] /\ SideModel.rtls e = [].
Proof.
  induction e as [|[d|a b] e IH]; intros H; [auto|exact (IH H)|discriminate H].
Qed.
Hypothesis veq_eq : forall a b, veq c a b = true -> a = b.
Variable br : SideSpec.browser V R.
Hypothesis br_modern : SideSpec.modern br.
Lemma sides_supported w x l : logical c f = true -> SideSpec.proper w ->
  Forall (fun a => viewed side_view a = true) l -> keeps sides_part (side_gives f w br x) l.
Proof.
  intros L P F. apply pusher_keeps; [apply side_wrap_view| |exact F]. intros l' s E [k ->].
  pose proof (side_minify l' k) as M. destruct (runs side_run _ l') as [[s1 o1] x1]. destruct (side_fin s1) as [[s2 o2] x2]. destruct M as [-> _]. intros _.
  rewrite !side_last. refine (proj1 (SideOrderProofs.supported_used V R (veq c) (compat c) (shorthand_category f) (logical c f) (block c f) w br veq_eq (fun v _ => proj1 br_modern v) k l' L P _ _) x).
  - apply SideOrderProofs.modern_fair. exact br_modern.
  - apply SideOrderProofs.modern_uniform. exact br_modern.
Qed.
Lemma sides_compiled rtl x l : logical c f = false ->
  Forall (fun a => viewed side_view a = true) l -> keeps sides_part (side_gives f (SideSpec.horizontal rtl) br x) l.
Proof.
  intros L F. apply pusher_keeps; [apply side_wrap_view| |exact F]. intros l' s E [k ->].
  pose proof (side_minify l' k) as M. destruct (runs side_run _ l') as [[s1 o1] x1]. destruct (side_fin s1) as [[s2 o2] x2]. destruct M as [-> ->]. intros X.
  apply dirs_none in X. rewrite !side_last.
  pose proof (SideOrderProofs.compiled_used V R (veq c) (compat c) (shorthand_category f) (logical c f) (block c f) br veq_eq (fun v _ => proj1 br_modern v) rtl k l' L) as U.
  assert (D : SideOrderProofs.dirs V R rtl (snd (SideModel.minify V R (veq c) (compat c) (shorthand_category f) (logical c f) (block c f) k l')) = []).
  { unfold SideOrderProofs.dirs. destruct rtl; apply X. }
  rewrite D, app_nil_r in U. apply U; [right; reflexivity|apply SideOrderProofs.modern_fair; exact br_modern|apply SideOrderProofs.modern_uniform; exact br_modern].
Qed.
(** Targets that know logical properties need no rules *)
Lemma then_main p (g : state -> state * list (SideModel.event V R)) : SideOrderProofs.only_main V R (snd p) -> (forall s, SideOrderProofs.only_main V R (snd (g s))) ->
  SideOrderProofs.only_main V R (snd (SideModel.then_ V R p g)).
Proof.
  intros H1 H2. unfold SideModel.then_. destruct p as [s e]. specialize (H2 s). destruct (g s) as [s' e']. apply SideOrderProofs.only_main_app; assumption.
Qed.
Lemma main_rules (e : list (SideModel.event V R)) : SideOrderProofs.only_main V R e -> dir_rules (Cond := Cond) e = [].
Proof. induction e as [|[d|a b] e IH]; intros M; [reflexivity| |destruct (M a b); left; reflexivity]. cbn. apply IH. intros a b I. apply (M a b). right. exact I. Qed.
Lemma main_nil : SideOrderProofs.only_main V R [].
Proof. intros a b []. Qed.
Lemma sides_quiet : logical c f = true -> quiet sides_part.
Proof.
  intros L. assert (Fl : forall s, SideOrderProofs.only_main V R (snd (flush s))).
  { intros s. unfold SideModel.flush. destruct (SideModel.has_any s); [|exact main_nil]. cbn [snd].
    refine (SideOrderProofs.only_main_app _ _ _ _ (SideOrderProofs.only_main_phys _ _ (veq c) (compat c) _ _ _) _). refine (SideOrderProofs.only_main_app _ _ _ _ (SideOrderProofs.only_main_block _ _ _ _ _) _).
    unfold SideModel.flush_inline. rewrite L. exact (SideOrderProofs.only_main_side _ _ _ _ _ _ _). }
  assert (Ff : forall g v k s, SideOrderProofs.only_main V R (snd (SideModel.flush_for V R (veq c) (compat c) (shorthand_category f) (logical c f) (block c f) g v k s))).
  { intros g v k s. unfold SideModel.flush_for. destruct (negb _ || _); [apply Fl|exact main_nil]. }
  assert (Lp : forall k x s, SideOrderProofs.only_main V R (snd (SideModel.logical_property V R (veq c) (shorthand_category f) (logical c f) (block c f) k x s))).
  { intros k x s. unfold SideModel.logical_property. apply then_main; [|intros; exact main_nil]. destruct (negb _ || _); [apply Fl|exact main_nil]. }
  split.
  - intros s ds a. cbn [of sides_part pusher_part pusher hhandle]. destruct (side_view a) as [d|]; [|exact I]. unfold side_run.
    assert (M : SideOrderProofs.only_main V R (snd (handle s d))).
    { destruct d as [k v|k v|x y|x y|t r b l|i u]; cbn [SideModel.handle]; unfold SideModel.property, SideModel.flush_log, SideModel.flush_side;
        repeat first [apply Lp|apply Ff|exact main_nil|apply then_main; [|intros]].
      destruct i; try apply Lp; (apply then_main; [apply Fl|intros ? ? ? [H|[]]; discriminate H]). }
    destruct (handle s d) as [s' e]. cbn [snd] in M. rewrite (main_rules e M). reflexivity.
  - intros s ds. cbn [of sides_part pusher_part pusher hfinish]. unfold side_fin. pose proof (Fl s) as M. destruct (flush s) as [s' e]. cbn [snd] in *. rewrite (main_rules e M). reflexivity.
Qed.
End Sides.

(** ** Shorthands *)
Section Shorthands.
Variable f : nat.
Notation sstate := (ShortModel.state V).
Notation sdecl := (ShortModel.decl V R).
Notation shandle := (ShortModel.handle V R Cond (width f) (compat c) (fallback_key f) (fallbacks c) (raw_fallbacks c)).
Notation shandle_all := (ShortModel.handle_all V R Cond (width f) (compat c) (fallback_key f) (fallbacks c) (raw_fallbacks c)).
Notation sflush := (ShortModel.flush V R Cond (width f) (fallback_key f) (fallbacks c)).
Definition short_ready (s : sstate) : Prop := s = ShortModel.start.
Definition short_inv (s : sstate) : Prop := ShortModel.has_any s = false -> ShortModel.slots s = fun _ => None.
Lemma short_then p (g : sstate -> _) : fst (ShortModel.then_ V R Cond p g) = fst (g (fst p)).
Proof. unfold ShortModel.then_. destruct p as [s e]. cbn. destruct (g s). reflexivity. Qed.
Lemma short_flush s : short_inv s -> ShortModel.slots (fst (sflush s)) = (fun _ => None) /\ ShortModel.has_any (fst (sflush s)) = false.
Proof.
  intros I. unfold ShortModel.flush. destruct (ShortModel.has_any s) eqn:E; [|split; [exact (I E)|exact E]].
  destruct (ShortModel.collect _ _ _) as [g|].
  - destruct (if ShortModel.flushed s None then _ else _) as [a b]. split; reflexivity.
  - destruct (ShortModel.flush_longs _ _ _ _ _ _ _ _) as [a b]. split; reflexivity.
Qed.
Lemma short_step s d : short_inv s -> short_inv (fst (shandle s d)).
Proof.
  intros I. destruct d as [k v|g|k u]; cbn [ShortModel.handle]; rewrite short_then; cbn [fst]; try (intros E; discriminate E).
  destruct (raw_fallbacks c u) as [a b]. cbn [fst]. intros _. cbn. apply short_flush. exact I.
Qed.
Definition short_view (a : A) : option sdecl := match a with Short g d => if Nat.eqb f g then Some d else None | _ => None end.
Lemma short_view_wrap d : short_view (Short f d) = Some d.
Proof. cbn. rewrite Nat.eqb_refl. reflexivity. Qed.
Lemma short_wrap_view a d : short_view a = Some d -> a = Short f d.
Proof. destruct a as [|g e| | | |]; cbn; try discriminate. destruct (Nat.eqb f g) eqn:E; [|discriminate]. apply Nat.eqb_eq in E. intros H. injection H as ->. subst. reflexivity. Qed.
Definition short_run (s : sstate) (d : sdecl) : sstate * list sdecl * list (place Cond * sdecl) :=
  let (s', e) := shandle s d in (s', ShortModel.mains e, if_rules e).
Definition short_fin (s : sstate) : sstate * list sdecl * list (place Cond * sdecl) :=
  let (s', e) := sflush s in (ShortModel.State (ShortModel.slots s') (fun _ => false) (ShortModel.has_any s'), ShortModel.mains e, if_rules e).
Definition short_part : part A R Cond.
Proof.
  refine (pusher_part ShortModel.start short_view (Short f) short_run short_fin short_inv short_ready short_view_wrap _ _ _ _).
  - reflexivity.
  - intros s ->. intros _. reflexivity.
  - intros s d I. unfold short_run. pose proof (short_step s d I) as H. destruct (shandle s d). exact H.
  - intros s I. unfold short_fin. pose proof (short_flush s I) as [H1 H2]. destruct (sflush s). cbn [fst] in *. rewrite H1, H2. reflexivity.
Defined.
Lemma short_of : of short_part = short c f.
Proof. reflexivity. Qed.
Lemma short_runs l : forall s, runs short_run s l = let (s', e) := shandle_all s l in (s', ShortModel.mains e, if_rules e).
Proof.
  induction l as [|d l IH]; intros s; [reflexivity|]. cbn [runs ShortModel.handle_all]. unfold short_run at 1, ShortModel.then_. destruct (shandle s d) as [s1 e1]. rewrite IH.
  destruct (shandle_all s1 l) as [s2 e2]. unfold ShortModel.mains, if_rules, ShortModel.supports. rewrite !flat_map_app, map_app. reflexivity.
Qed.
Lemma short_minify l : let '(s1, o1, x1) := runs short_run ShortModel.start l in let '(_, o2, x2) := short_fin s1 in
  let e := ShortModel.minify V R Cond (width f) (compat c) (fallback_key f) (fallbacks c) (raw_fallbacks c) l in
  o1 ++ o2 = ShortModel.mains e /\ x1 ++ x2 = if_rules e.
Proof.
  rewrite short_runs. unfold ShortModel.minify, ShortModel.then_, short_fin. destruct (shandle_all ShortModel.start l) as [s1 e1]. destruct (sflush s1) as [s2 e2].
  cbn [snd]. unfold ShortModel.mains, if_rules, ShortModel.supports. rewrite !flat_map_app, map_app. auto.
Qed.
Context {W X : Type}.
Variable br : ShortSpec.browser V R W X.
Hypothesis br_modern : ShortSpec.modern br.
Lemma short_last k l : last_given (Short f) _ (short_gives f (width f) br k) l = ShortSpec.used_from None (width f) br l k.
Proof.
  unfold last_given. generalize (@None (ShortSpec.cell W X)). induction l as [|d l IH]; intros o; [reflexivity|]. cbn [fold_left ShortSpec.used_from]. rewrite IH. f_equal.
  cbn [short_gives]. rewrite Nat.eqb_refl. cbn [andb]. destruct (ShortSpec.accepts (width f) br d); reflexivity.
Qed.
Lemma width_pos : 0 < width f.
Proof. destruct f as [|[|g]]; cbn; lia. Qed.
Lemma short_keeps k l : (forall v, ShortSpec.value br (snd (fallbacks c v)) = ShortSpec.value br v) ->
  (forall u, fst (raw_fallbacks c u) = [] -> ShortSpec.tokens br (snd (raw_fallbacks c u)) = ShortSpec.tokens br u) ->
  k < width f -> Forall wf l -> Forall (fun a => viewed short_view a = true) l -> keeps short_part (short_gives f (width f) br k) l.
Proof.
  intros Hf Hr L Hw F. apply pusher_keeps; [apply short_wrap_view| |exact F]. intros l' s E ->.
  pose proof (short_minify l') as M. destruct (runs short_run _ l') as [[s1 o1] x1]. destruct (short_fin s1) as [[s2 o2] x2]. destruct M as [-> ->]. intros N.
  rewrite !short_last. apply (ShortProofs.minify_used V R Cond W X (width f) (compat c) (fallback_key f) (fallbacks c) (raw_fallbacks c) br width_pos).
  - intros v _. apply br_modern.
  - intros v. right. apply br_modern.
  - intros v. rewrite !(proj1 br_modern). auto.
  - intros u Hu. rewrite !(proj2 br_modern). auto.
  - subst l. clear - Hw. exact (proj1 (Forall_map _ _ _) Hw).
  - apply ShortProofs.modern_uniform. exact br_modern.
  - apply ShortProofs.modern_uniform. exact br_modern.
  - unfold if_rules in N. apply map_eq_nil in N. exact N.
  - exact L.
Qed.
End Shorthands.

(** ** Pairs *)
Section Pairs.
Variable f : nat.
Notation sdecl := (ShortModel.decl V R).
Definition two (f : nat) : bool := match f with 0 => true | _ => two_values c end.
Definition pair_view (a : A) : option sdecl := match a with Pairs g d => if Nat.eqb f g then Some d else None | _ => None end.
Lemma pair_view_wrap d : pair_view (Pairs f d) = Some d.
Proof. cbn. rewrite Nat.eqb_refl. reflexivity. Qed.
Lemma pair_wrap_view a d : pair_view a = Some d -> a = Pairs f d.
Proof. destruct a as [| |g e| | |]; cbn; try discriminate. destruct (Nat.eqb f g) eqn:E; [|discriminate]. apply Nat.eqb_eq in E. intros H. injection H as ->. subst. reflexivity. Qed.
Definition pair_run (s : ShortModel.pair_state V) (d : sdecl) : ShortModel.pair_state V * list sdecl * list (place Cond * sdecl) :=
  let (s', o) := ShortModel.pair_handle V R (veq c) (two f) s d in (s', o, []).
Definition pair_fin (s : ShortModel.pair_state V) : ShortModel.pair_state V * list sdecl * list (place Cond * sdecl) :=
  (ShortModel.Pair None None, ShortModel.pair_finalize V R (veq c) (two f) s, []).
Definition pairs_part : part A R Cond.
Proof.
  refine (pusher_part (ShortModel.Pair None None) pair_view (Pairs f) pair_run pair_fin (fun _ => True) (fun s => s = ShortModel.Pair None None) pair_view_wrap _ _ _ _); auto.
Defined.
Lemma pairs_of : of pairs_part = pairs c f.
Proof. reflexivity. Qed.
Lemma pairs_quiet : quiet pairs_part.
Proof.
  split; [|reflexivity]. intros s ds a. cbn [of pairs_part pusher_part pusher hhandle]. destruct (pair_view a) as [d|]; [|exact I]. unfold pair_run.
  destruct (ShortModel.pair_handle _ _ _ _ _ _). reflexivity.
Qed.
Lemma pair_minify l : forall s, let '(s1, o1, x1) := runs pair_run s l in
  o1 ++ ShortModel.pair_finalize V R (veq c) (two f) s1 = ShortModel.pair_minify V R (veq c) (two f) s l.
Proof.
  induction l as [|d l IH]; intros s; [reflexivity|]. cbn [runs ShortModel.pair_minify]. unfold pair_run at 1. destruct (ShortModel.pair_handle _ _ _ _ s d) as [s1 o1].
  specialize (IH s1). destruct (runs pair_run s1 l) as [[s2 o2] x2]. rewrite <- app_assoc, IH. reflexivity.
Qed.
Context {W X : Type}.
Variable br : ShortSpec.browser V R W X.
Hypothesis br_modern : ShortSpec.modern br.
Lemma pair_last k l : last_given (Pairs f) _ (pair_gives f br k) l = ShortSpec.used_from None 2 br l k.
Proof.
  unfold last_given. generalize (@None (ShortSpec.cell W X)). induction l as [|d l IH]; intros o; [reflexivity|]. cbn [fold_left ShortSpec.used_from]. rewrite IH. f_equal.
  cbn [pair_gives]. rewrite Nat.eqb_refl. cbn [andb]. destruct (ShortSpec.accepts 2 br d); reflexivity.
Qed.
Lemma pairs_keeps k l : k < 2 -> Forall wf l -> Forall (fun a => viewed pair_view a = true) l -> keeps pairs_part (pair_gives f br k) l.
Proof.
  intros L Hw F. apply pusher_keeps; [apply pair_wrap_view| |exact F]. intros l' s E ->.
  pose proof (pair_minify l' (ShortModel.Pair None None)) as M. destruct (runs pair_run _ l') as [[s1 o1] x1]. cbn [pair_fin]. rewrite M. intros _.
  rewrite !pair_last. subst l. pose proof (proj1 (Forall_map (Pairs f) wf l') Hw) as Hw2. clear Hw. rename Hw2 into Hw.
  rewrite (ShortProofs.pair_minify_used V R W X (veq c) (two f) br br_modern l' Hw (ShortModel.Pair None None) k None L). f_equal. destruct k as [|[|k]]; reflexivity.
Qed.
End Pairs.
End Boxes.
