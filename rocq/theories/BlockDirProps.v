(** * C55, continued: rules for the two directions, and keyframes *)
From Coq Require Import List Bool PeanoNat.
From Verif Require SideModel ShortModel SideSpec ShortSpec.
From Verif Require Import PrefixModel BlockModel BlockSpec BlockHandlers BlockValueSpec BlockExamples BlockDirSpec BlockDirProofs.
Import ListNotations.

(** Targets without logical properties: the block and the rules that are added for one direction give
    each side what the declarations gave it.  Missing: blocks with [all] (C55_dir_rules_refuted),
    important declarations, and physical sides after inline ones. *)
Theorem C55_direction_rules_partial :
  forall (V R Cond : Type) (c : config V R Cond) (unused : nat -> bool) (req : R -> R -> bool) (h hi : list (context * list (decl (prop V R) R)))
         (ctx : context) (normal : list (decl (prop V R) R)) (f : nat) (rtl : bool) (br : SideSpec.browser V R)
         (x : SideModel.side) (o : given R (SideSpec.cell V R)),
    f < 5 -> (forall a b, veq c a b = true -> a = b) -> logical c f = false -> SideSpec.modern br ->
    Forall no_all normal -> SideSpec.inline_last (sides_in f normal) ->
    let out := minify_after c unused req h hi ctx normal [] in
    used_from (side_gives f (SideSpec.horizontal rtl) br x) o (m_normal out ++ for_direction rtl (rules_of (is_sides f) (m_rules out))) =
    used_from (side_gives f (SideSpec.horizontal rtl) br x) o normal.
Proof.
  exact (fun V R Cond c un req h hi ctx n f rtl br x o L Hv Hl Hm N I => direction_block c un req h hi ctx f n rtl br x o L Hv Hl Hm N I).
Qed.
Print Assumptions C55_direction_rules_partial.
Example C55_direction_rules_example :
  let l := [Plain (Sides 0 (SideModel.DAll 1 2 3 4)); Plain (Free 0 1); Plain (Sides 0 (SideModel.DInline 5 6)); Plain (Sides 1 (SideModel.DLog SideModel.BlockStart 6))] in
  let out := in_rule old_targets l in
  (forall rtl x, used_from (side_gives 0 (SideSpec.horizontal rtl) new_sides x) Nothing (m_normal out ++ for_direction rtl (rules_of (is_sides 0) (m_rules out))) =
                 used_from (side_gives 0 (SideSpec.horizontal rtl) new_sides x) Nothing l)
  /\ map show (m_normal out) = [[4; 0; 1]; [0; 0; 13; 1; 2; 3; 4]; [0; 1; 11; 6]]
  /\ for_direction false (m_rules out) = [Plain (Sides 0 (SideModel.DSide SideModel.Left 5)); Plain (Sides 0 (SideModel.DSide SideModel.Right 6))]
  /\ for_direction true (m_rules out) = [Plain (Sides 0 (SideModel.DSide SideModel.Right 5)); Plain (Sides 0 (SideModel.DSide SideModel.Left 6))].
Proof.
  split; [|vm_compute; repeat split; reflexivity].
  intros rtl x. apply C55_direction_rules_partial; try reflexivity; [repeat constructor|intros a b E; apply Nat.eqb_eq; exact E|split; reflexivity|repeat constructor|].
  exists [SideModel.DAll 1 2 3 4], [SideModel.DInline 5 6]. split; [reflexivity|]. split; [intros d [<-|[]]; reflexivity|]. split; [intros d [<-|[]]; reflexivity|].
  intros d e a [<-|[]] [<-|[]] [<-|[]] [H|[]]. discriminate H.
Qed.

(** In keyframes custom properties keep their tokens, whatever fallbacks they would have elsewhere *)
Theorem C55_keyframe_custom_partial :
  forall (V R Cond : Type) (c : config V R Cond) (unused : nat -> bool) (req : R -> R -> bool) (h hi : list (context * list (decl (prop V R) R)))
         (normal important : list (decl (prop V R) R)) (name : nat) (o : option R),
    unused name = false -> (forall u v, req u v = true -> u = v) ->
    let out := minify_after c unused req h hi InKeyframes normal important in
    custom_from (fun u => u) name o (m_normal out ++ m_important out) = custom_from (fun u => u) name o (normal ++ important).
Proof. exact (fun V R Cond c un req h hi n im name o U Hr => keyframe_custom c un req h hi n im name o U Hr). Qed.
Print Assumptions C55_keyframe_custom_partial.
Example C55_keyframe_custom_example :
  let l : list (decl (prop nat nat) nat) := [Custom 0 4; Custom 0 12; Custom 1 11] in
  let out c := minify_after new_targets all_used Nat.eqb [] [] c l [] in
  m_normal (out InKeyframes) = [Custom 0 12; Custom 1 11] /\ m_rules (out InKeyframes) = []
  /\ m_normal (out InRule) = [Custom 0 3; Custom 1 3] /\ m_rules (out InRule) = [(If 0, Custom 0 12); (If 0, Custom 1 11)].
Proof. vm_compute. repeat split. Qed.

(** The three longhands of [outline] and [list-style], and the two of [container], become shorthands *)
Example C55_longhands_example :
  let l f n := map (fun k => Plain (Short f (ShortModel.DLong k (S k)))) (seq 0 n) in
  let out f n := m_normal (in_rule new_targets (l f n)) in
  map show (out 0 2) = [[1; 0; 20; 0; 1]; [1; 0; 20; 1; 2]] /\ map show (out 0 3) = [[1; 0; 21; 1; 2]]
  /\ map show (out 1 2) = [[1; 1; 20; 0; 1]; [1; 1; 20; 1; 2]] /\ map show (out 1 3) = [[1; 1; 21; 1; 2]]
  /\ map show (out 2 1) = [[1; 2; 20; 0; 1]] /\ map show (out 2 2) = [[1; 2; 21; 1; 2]].
Proof. vm_compute. repeat split. Qed.
