(** * Blocks whose inline sides become rules for the two directions *)
From Coq Require Import List Bool PeanoNat Lia.
From Verif Require SideModel SideSpec SideOrderProofs.
From Verif Require Import BlockModel BlockSpec BlockHandlers BlockValueSpec BlockProofs BlockUsedProofs BlockPartProofs BlockBoxProofs BlockAllProofs BlockDirSpec.
Import ListNotations.

Section Dir.
Context {V R Cond : Type}.
Variable c : config V R Cond.
Notation A := (prop V R).
Notation decl := (decl A R).
Variable unused : nat -> bool.
Variable req : R -> R -> bool.
Variable history history_important : list (context * list decl).
Variable ctx : context.
Variable f : nat.
Notation p := (sides_part c f).

Lemma kept_sides (l : list decl) : Forall no_all l -> filter (kept (owns p)) l = map (fun d => Plain (Sides f d)) (sides_in f l).
Proof.
  induction 1 as [|d l H F IH]; [reflexivity|]. cbn [filter]. rewrite IH. destruct d as [a|v|v|kw|k u|n u]; try reflexivity; [|destruct H].
  destruct a as [g d|g d|g d|h k v s|h k u s|n u]; try reflexivity.
  unfold kept. cbn [owns sides_part pusher_part]. unfold viewed, side_view, sides_in. cbn [flat_map].
  destruct (Nat.eqb f g) eqn:E; [|reflexivity]. apply Nat.eqb_eq in E. subst g. reflexivity.
Qed.
Lemma solo_steps (l : list A) : Forall (fun a => owns p a = true) l -> forall s ds,
  handle_all ctx unused req (raw_fallbacks c) (State [Running (of p) s] None None [] ds) (map Plain l) =
  let '(s', ds', x) := steps (of p) s ds l in (State [Running (of p) s'] None None [] ds', x).
Proof.
  induction 1 as [|a l H F IH]; intros s ds; [reflexivity|]. cbn [map BlockModel.handle_all BlockModel.handle handlers decls]. rewrite try_single. cbn [steps].
  destruct (hhandle (of p) s ds a) as [[[s1 ds1] x]|]; unfold set_decls; cbn [handlers direction bidi customs decls]; rewrite IH.
  - destruct (steps (of p) s1 ds1 l) as [[s2 ds2] y]. reflexivity.
  - destruct (steps (of p) s _ l) as [[s2 ds2] y]. reflexivity.
Qed.
Lemma solo_minify (l : list A) s : Forall (fun a => owns p a = true) l ->
  let '(_, ds, x) := minify ctx unused req (raw_fallbacks c) [Running (of p) s] (map Plain l) in (ds, x) = alone (of p) s [] l.
Proof.
  intros F. unfold BlockModel.minify, begin. rewrite (solo_steps l F). unfold alone. destruct (steps (of p) s [] l) as [[s1 ds1] x].
  unfold finish. cbn [handlers decls direction bidi opt app finish_all]. rewrite app_nil_r. destruct (hfinish (of p) s1 ds1) as [[s2 ds2] y].
  rewrite app_nil_r. reflexivity.
Qed.
Lemma direction_rules rtl (e : list (SideModel.event V R)) :
  for_direction rtl (ruled (Sides f) (dir_rules (Cond := Cond) e) : rules A R Cond) = pushed (Sides f) (SideOrderProofs.dirs V R rtl e).
Proof.
  unfold for_direction, ruled, pushed, dir_rules, SideOrderProofs.dirs, SideModel.ltrs, SideModel.rtls. induction e as [|[d|a b] e IH]; [destruct rtl; reflexivity|exact IH|].
  cbn [flat_map]. rewrite map_app, flat_map_app, IH. destruct rtl; reflexivity.
Qed.
Lemma rules_side (x : rules A R Cond) : rules_of (is_sides f) x = filter (fun r => mine (owns p) (snd r)) x.
Proof. unfold rules_of. apply filter_ext. intros [pl d]. destruct d as [a| | | | |]; try reflexivity. destruct a; try reflexivity. cbn. unfold viewed, side_view. destruct (Nat.eqb f f0); reflexivity. Qed.

Theorem direction_block normal rtl br x o : f < 5 -> (forall a b, veq c a b = true -> a = b) -> logical c f = false -> SideSpec.modern br ->
  Forall no_all normal -> SideSpec.inline_last (sides_in f normal) ->
  let out := minify_after c unused req history history_important ctx normal [] in
  used_from (side_gives f (SideSpec.horizontal rtl) br x) o (m_normal out ++ for_direction rtl (rules_of (is_sides f) (m_rules out))) =
  used_from (side_gives f (SideSpec.horizontal rtl) br x) o normal.
Proof.
  intros L Hv Hl Hm N I out. destruct (sides_index c f L) as [i Ni].
  set (hs := after unused req (raw_fallbacks c) (fresh c) history). set (hi := after unused req (raw_fallbacks c) (fresh c) history_important).
  assert (P : Forall (parsed SAll) normal).
  { eapply Forall_impl; [|exact N]. intros d. destruct d as [a|v|v|kw|k u|n u]; cbn; auto. destruct k; try discriminate. intros []. }
  assert (O : m_normal out = snd (fst (minify ctx unused req (raw_fallbacks c) hs normal))
    /\ rules_of (is_sides f) (m_rules out) = rules_of (is_sides f) (snd (minify ctx unused req (raw_fallbacks c) hs normal))).
  { pose proof (hi_ready c unused req history_important) as Yi.
    destruct (ready_nth _ _ i _ Yi Ni) as [si [Nsi Idi]].
    pose proof (minify_together ctx unused req (raw_fallbacks c) (parts c) _ i _ si [] (parts_separate c) Yi Ni Nsi Idi) as Mi.
    pose proof (solo_minify [] si (Forall_nil _)) as Si. cbn [filter map] in Mi, Si. fold hi in Mi.
    subst out. unfold minify_after, minify_block. fold hs hi. unfold BlockModel.minify in *. cbn [BlockModel.handle_all].
    destruct (handle_all ctx unused req (raw_fallbacks c) (begin hs) normal) as [s1 x1]. destruct (finish s1) as [[h1 d1] y1].
    cbn [BlockModel.handle_all] in Mi, Si. destruct (finish (begin hi)) as [[h2 d2] y2]. destruct (finish (begin [Running (of p) si])) as [[h3 d3] y3].
    cbn [m_normal m_rules fst snd app] in *. split; [reflexivity|]. destruct Mi as [_ Mi]. rewrite !rules_side. rewrite app_assoc, filter_app. rewrite Mi.
    assert (E : y3 = []).
    { destruct Idi as [k ->]. clear - Si. revert Si. unfold alone. cbn [steps of sides_part pusher_part pusher hfinish]. unfold side_fin, SideModel.flush. cbn. intros Si. injection Si as _ ->. reflexivity. }
    rewrite E, app_nil_r. reflexivity. }
  destruct O as [-> ->]. pose proof (hs_ready c unused req history) as Y. fold hs in Y.
  destruct (ready_nth _ _ i _ Y Ni) as [s [Ns Id]].
  pose proof (minify_parsed ctx unused req (raw_fallbacks c) (parts c) hs normal (parts_separate c) Y P) as F2.
  pose proof (minify_together ctx unused req (raw_fallbacks c) (parts c) hs i p s normal (parts_separate c) Y Ni Ns Id) as M.
  destruct (minify ctx unused req (raw_fallbacks c) hs normal) as [[hs' ds] y]. cbn [fst snd] in *.
  rewrite (kept_sides normal N) in M.
  assert (W : map (fun d => Plain (Sides f d)) (sides_in f normal) = map (@Plain A R) (map (Sides f) (sides_in f normal))) by (rewrite map_map; reflexivity).
  rewrite W in M.
  assert (Fo : Forall (fun a => owns p a = true) (map (Sides f) (sides_in f normal))).
  { apply Forall_map, Forall_forall. intros d _. cbn [owns sides_part pusher_part]. unfold viewed. rewrite side_view_wrap. reflexivity. }
  pose proof (solo_minify _ s Fo) as Sm. destruct (minify ctx unused req (raw_fallbacks c) [Running (of p) s] _) as [[h2 ds2] y2].
  destruct M as [M1 M2]. rewrite rules_side, M2.
  destruct Id as [k ->].
  pose proof (pusher_alone (SideModel.State (SideModel.none_phys V) (SideModel.none_log V R) false SideModel.Physical) (side_view f) (Sides f) (side_run c f) (side_fin c f)
                (side_view_wrap f) (sides_in f normal) (SideModel.State (SideModel.none_phys V) (SideModel.none_log V R) false k) []) as Al.
  cbn [of sides_part pusher_part] in Sm. rewrite Al in Sm. clear Al.
  pose proof (side_minify c f (sides_in f normal) k) as Mm. destruct (runs _ _ _) as [[s1 o1] x1]. destruct (side_fin c f s1) as [[s2 o2] x2].
  destruct Mm as [E1 E2]. injection Sm as -> ->. cbn [app] in *. rewrite E1, E2 in *. clear E1 E2.
  rewrite used_app. rewrite <- (used_filter _ p (side_gives f (SideSpec.horizontal rtl) br x) (side_none c f _ br x) ds o F2). rewrite M1.
  rewrite direction_rules. rewrite <- (used_filter _ p (side_gives f (SideSpec.horizontal rtl) br x) (side_none c f _ br x) normal o P), (kept_sides normal N).
  rewrite <- used_app. unfold pushed. rewrite <- map_app.
  change (used_from (side_gives f (SideSpec.horizontal rtl) br x) o (pushed (Sides f) (SideModel.mains (snd (SideModel.minify V R (veq c) (compat c) (shorthand_category f) (logical c f) (block c f) k (sides_in f normal)))
    ++ SideOrderProofs.dirs V R rtl (snd (SideModel.minify V R (veq c) (compat c) (shorthand_category f) (logical c f) (block c f) k (sides_in f normal))))) =
    used_from (side_gives f (SideSpec.horizontal rtl) br x) o (pushed (Sides f) (sides_in f normal))).
  rewrite !(used_pushed (Sides f)), !side_last.
  rewrite (SideOrderProofs.compiled_used V R (veq c) (compat c) (shorthand_category f) (logical c f) (block c f) br Hv (fun v _ => proj1 Hm v) rtl k (sides_in f normal) Hl (or_introl I)).
  - reflexivity.
  - apply SideOrderProofs.modern_fair. exact Hm.
  - apply SideOrderProofs.modern_uniform. exact Hm.
Qed.
End Dir.

Section Keyframes.
Context {V R Cond : Type}.
Theorem keyframe_custom (c : config V R Cond) unused req h hi (normal important : list (decl (prop V R) R)) name o :
  unused name = false -> (forall u v, req u v = true -> u = v) ->
  let out := minify_after c unused req h hi InKeyframes normal important in
  custom_from (fun u => u) name o (m_normal out ++ m_important out) = custom_from (fun u => u) name o (normal ++ important).
Proof.
  intros U Hr out. subst out. unfold minify_after. destruct (block_minify InKeyframes unused req (raw_fallbacks c) (after unused req (raw_fallbacks c) (fresh c) h) (after unused req (raw_fallbacks c) (fresh c) hi) normal important) as [-> [-> _]].
  assert (S : forall l : list (decl (prop V R) R), Forall (same_value InKeyframes (raw_fallbacks c) R (fun u => u) name) l).
  { intros l. apply Forall_forall. intros [| | | | |n u] _; cbn; auto. }
  assert (F : forall (l m : list (decl (prop V R) R)) o, custom_from (fun u => u) name o (l ++ m) = custom_from (fun u => u) name (custom_from (fun u => u) name o l) m) by (intros; unfold custom_from; apply fold_left_app).
  rewrite !F. rewrite (minify_custom InKeyframes unused req (raw_fallbacks c) R (fun u => u) name U Hr (parts c) _ normal o (parts_separate c) (hs_ready c unused req h) (S _)).
  apply (minify_custom InKeyframes unused req (raw_fallbacks c) R (fun u => u) name U Hr (parts c) _ important _ (parts_separate c) (hi_ready c unused req hi) (S _)).
Qed.
End Keyframes.
