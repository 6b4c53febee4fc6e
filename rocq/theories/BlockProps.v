(** * C55: a whole declaration block *)
From Coq Require Import List Bool PeanoNat Lia.
From Verif Require SideModel ShortModel SideSpec ShortSpec PrefixSpec.
From Verif Require Import PrefixModel BlockModel BlockSpec BlockHandlers BlockValueSpec BlockExamples.
From Verif Require Import BlockProofs BlockAllProofs BlockFreeProofs.
Import ListNotations.

(** Any handlers that mind their own business keep what they keep alone *)
Theorem C55_any_handlers_partial :
  forall (A R Cond C : Type) (ctx : context) (unused : nat -> bool) (req : R -> R -> bool) (raw_fallbacks : R -> list (Cond * R) * R)
         (ps : list (part A R Cond)) (hs hi : list (running A R Cond)) (i : nat) (p : part A R Cond) (gives : A -> option C)
         (normal important : list (decl A R)) (o : given R C),
    separate ps -> ready ps hs -> ready ps hi -> nth_error ps i = Some p -> (forall a, owns p a = false -> gives a = None) ->
    Forall (parsed SAll) (normal ++ important) ->
    keeps p gives (segment (owns p) [] normal) -> keeps p gives (segment (owns p) [] important) ->
    let out := minify_block ctx unused req raw_fallbacks hs hi normal important in
    rules_of (owns p) (m_rules out) = [] ->
    used_from gives o (m_normal out ++ m_important out) = used_from gives o (normal ++ important).
Proof.
  exact (fun A R Cond C ctx un req rf ps hs hi i p g n im o S Y Yi N G F K Ki X => block_used ctx un req rf ps S g i p hs hi n im o Y Yi N G F K Ki X).
Qed.
Print Assumptions C55_any_handlers_partial.

(** Box sides, with browsers that know logical properties *)
Theorem C55_sides_partial :
  forall (V R Cond : Type) (c : config V R Cond) (unused : nat -> bool) (req : R -> R -> bool) (h hi : list (context * list (decl (prop V R) R)))
         (ctx : context) (normal important : list (decl (prop V R) R)) (f : nat) (w : SideSpec.writing_mode) (br : SideSpec.browser V R)
         (x : SideModel.side) (o : given R (SideSpec.cell V R)),
    f < 5 -> (forall a b, veq c a b = true -> a = b) -> logical c f = true -> SideSpec.proper w -> SideSpec.modern br ->
    Forall (parsed SAll) (normal ++ important) ->
    let out := minify_after c unused req h hi ctx normal important in
    used_from (side_gives f w br x) o (m_normal out ++ m_important out) = used_from (side_gives f w br x) o (normal ++ important).
Proof.
  exact (fun V R Cond c un req h hi ctx n im f w br x o L Hv Hl Hw Hm P => sides_block c un req h hi ctx n im P f w br x o L Hv Hl Hw Hm).
Qed.
Print Assumptions C55_sides_partial.
Example C55_sides_example :
  let out := minify_after new_targets all_used Nat.eqb [(InRule, before)] [] InRule sample sample_important in
  (forall x, used_from (side_gives 0 ltr new_sides x) Nothing (m_normal out ++ m_important out) = used_from (side_gives 0 ltr new_sides x) Nothing (sample ++ sample_important))
  /\ map show (m_normal out) =
     [[9; 0; 6]; [7; 3]; [3; 7; 5; 1; 1]; [4; 0; 8]; [3; 0; 3; 0; 1]; [9; 1; 5]; [1; 0; 20; 0; 6]; [1; 0; 22; 7]; [4; 0; 9];
      [0; 0; 13; 1; 2; 3; 5]; [5; 1]; [6; 2]; [1; 0; 20; 2; 4]; [2; 0; 21; 1; 2]; [0; 0; 12; 6]]
  /\ map show (m_important out) = [[6; 1]; [2; 0; 20; 1; 3]; [0; 0; 11; 7]]
  /\ map (fun x => used_from (side_gives 0 ltr new_sides x) Nothing (sample ++ sample_important)) [SideModel.Top; SideModel.Right; SideModel.Bottom; SideModel.Left] =
     [Given (SideSpec.CVal 7); Given (SideSpec.CVal 2); Given (SideSpec.CVal 3); Given (SideSpec.CVal 6)].
Proof.
  split; [intros x; apply C55_sides_partial; try reflexivity; [repeat constructor|intros a b E; apply Nat.eqb_eq; exact E|exact ltr_proper|split; reflexivity|apply sample_parsed]|].
  split; [vm_compute; reflexivity|]. split; vm_compute; reflexivity.
Qed.

(** Other targets, when no rule is added for the sides *)
Theorem C55_compiled_sides_partial :
  forall (V R Cond : Type) (c : config V R Cond) (unused : nat -> bool) (req : R -> R -> bool) (h hi : list (context * list (decl (prop V R) R)))
         (ctx : context) (normal important : list (decl (prop V R) R)) (f : nat) (rtl : bool) (br : SideSpec.browser V R)
         (x : SideModel.side) (o : given R (SideSpec.cell V R)),
    f < 5 -> (forall a b, veq c a b = true -> a = b) -> logical c f = false -> SideSpec.modern br ->
    Forall (parsed SAll) (normal ++ important) ->
    let out := minify_after c unused req h hi ctx normal important in
    rules_of (is_sides f) (m_rules out) = [] ->
    used_from (side_gives f (SideSpec.horizontal rtl) br x) o (m_normal out ++ m_important out) = used_from (side_gives f (SideSpec.horizontal rtl) br x) o (normal ++ important).
Proof.
  exact (fun V R Cond c un req h hi ctx n im f rtl br x o L Hv Hl Hm P X => sides_compiled_block c un req h hi ctx n im P f rtl br x o L Hv Hl Hm X).
Qed.
Print Assumptions C55_compiled_sides_partial.
Example C55_compiled_sides_example :
  let l := [Plain (Sides 0 (SideModel.DAll 1 2 3 4)); Plain (Free 0 1); Plain (Sides 0 (SideModel.DInline 5 5)); Plain (Sides 1 (SideModel.DLog SideModel.BlockStart 6))] in
  let out := in_rule old_targets l in
  (forall rtl x, used_from (side_gives 0 (SideSpec.horizontal rtl) new_sides x) Nothing (m_normal out ++ m_important out) = used_from (side_gives 0 (SideSpec.horizontal rtl) new_sides x) Nothing (l ++ []))
  /\ map show (m_normal out) = [[4; 0; 1]; [0; 0; 13; 1; 2; 3; 4]; [0; 0; 10; 5]; [0; 0; 11; 5]; [0; 1; 11; 6]].
Proof.
  split; [intros rtl x; apply C55_compiled_sides_partial; try reflexivity; [repeat constructor|intros a b E; apply Nat.eqb_eq; exact E|split; reflexivity|repeat constructor]|vm_compute; reflexivity].
Qed.

(** The shorthands [outline], [list-style] and [container], when no rule is added for them *)
Theorem C55_shorthands_partial :
  forall (V R Cond W X : Type) (c : config V R Cond) (unused : nat -> bool) (req : R -> R -> bool) (h hi : list (context * list (decl (prop V R) R)))
         (ctx : context) (normal important : list (decl (prop V R) R)) (f : nat) (br : ShortSpec.browser V R W X) (k : nat) (o : given R (ShortSpec.cell W X)),
    f < 3 -> k < width f -> ShortSpec.modern br -> Forall wf_decl (normal ++ important) ->
    (forall v, ShortSpec.value br (snd (fallbacks c v)) = ShortSpec.value br v) ->
    (forall u, fst (raw_fallbacks c u) = [] -> ShortSpec.tokens br (snd (raw_fallbacks c u)) = ShortSpec.tokens br u) ->
    Forall (parsed SAll) (normal ++ important) ->
    let out := minify_after c unused req h hi ctx normal important in
    rules_of (is_short f) (m_rules out) = [] ->
    used_from (short_gives f (width f) br k) o (m_normal out ++ m_important out) = used_from (short_gives f (width f) br k) o (normal ++ important).
Proof.
  exact (fun V R Cond W X c un req h hi ctx n im f br k o L Lk Hm Hw Hf Hr P X' => short_block c un req h hi ctx n im P f br k o L Lk Hm Hw Hf Hr X').
Qed.
Print Assumptions C55_shorthands_partial.
Example C55_shorthands_example :
  let out := minify_after new_targets all_used Nat.eqb [(InRule, before)] [] InRule sample sample_important in
  (forall k, k < 3 -> used_from (short_gives 0 3 new_values k) Nothing (m_normal out ++ m_important out) = used_from (short_gives 0 3 new_values k) Nothing (sample ++ sample_important))
  /\ map (fun k => used_from (short_gives 0 3 new_values k) Nothing (sample ++ sample_important)) [0; 1; 2] = [Given (ShortSpec.CPart 7); Given (ShortSpec.CPart 7); Given (ShortSpec.CVal 4)].
Proof.
  split; [intros k L; apply (C55_shorthands_partial nat nat nat nat nat new_targets all_used Nat.eqb [(InRule, before)] [] InRule sample sample_important 0 new_values k);
    try reflexivity; [repeat constructor|exact L|split; reflexivity|exact sample_wf| |apply sample_parsed]|reflexivity].
  intros u. cbn. unfold lower. destruct (small u); [reflexivity|discriminate].
Qed.

(** The pairs [gap] and [overflow] *)
Theorem C55_pairs_partial :
  forall (V R Cond W X : Type) (c : config V R Cond) (unused : nat -> bool) (req : R -> R -> bool) (h hi : list (context * list (decl (prop V R) R)))
         (ctx : context) (normal important : list (decl (prop V R) R)) (f : nat) (br : ShortSpec.browser V R W X) (k : nat) (o : given R (ShortSpec.cell W X)),
    f < 2 -> k < 2 -> ShortSpec.modern br -> Forall wf_decl (normal ++ important) -> Forall (parsed SAll) (normal ++ important) ->
    let out := minify_after c unused req h hi ctx normal important in
    used_from (pair_gives f br k) o (m_normal out ++ m_important out) = used_from (pair_gives f br k) o (normal ++ important).
Proof.
  exact (fun V R Cond W X c un req h hi ctx n im f br k o L Lk Hm Hw P => pairs_block c un req h hi ctx n im P f br k o L Lk Hm Hw).
Qed.
Print Assumptions C55_pairs_partial.
Example C55_pairs_example :
  let out := minify_after new_targets all_used Nat.eqb [(InRule, before)] [] InRule sample sample_important in
  (forall k, k < 2 -> used_from (pair_gives 0 new_values k) Nothing (m_normal out ++ m_important out) = used_from (pair_gives 0 new_values k) Nothing (sample ++ sample_important))
  /\ map (fun k => used_from (pair_gives 0 new_values k) Nothing (sample ++ sample_important)) [0; 1] = [Given (ShortSpec.CVal 1); Given (ShortSpec.CVal 3)].
Proof.
  split; [intros k L; apply C55_pairs_partial; [repeat constructor|exact L|split; reflexivity|exact sample_wf|apply sample_parsed]|reflexivity].
Qed.

(** Prefixed properties, without targets, if no prefix is given another value once a different one has the
    same value *)
Theorem C55_prefixes_partial :
  forall (V R Cond W : Type) (c : config V R Cond) (unused : nat -> bool) (req : R -> R -> bool) (h hi : list (context * list (decl (prop V R) R)))
         (ctx : context) (normal important : list (decl (prop V R) R)) (br : PrefixSpec.browser V R W) (k : nat) (q : pfx) (o : given R (PrefixSpec.cell R W)),
    (forall a b, veq c a b = true <-> a = b) ->
    needed (prefix_targets c) = None /\ (included (prefix_targets c) = false \/ excluded (prefix_targets c) = true) ->
    PrefixSpec.modern br -> (forall v v', PrefixSpec.value br v = PrefixSpec.value br v' -> v = v') ->
    Forall (PrefixSpec.written k) (prefix_segment false normal ++ prefix_segment false important) ->
    PrefixSpec.steady PrefixSpec.alone br k (prefix_segment false normal) -> PrefixSpec.steady PrefixSpec.alone br k (prefix_segment false important) ->
    Forall (parsed SAll) (normal ++ important) ->
    let out := minify_after c unused req h hi ctx normal important in
    used_from (prefix_gives false br k q) o (m_normal out ++ m_important out) = used_from (prefix_gives false br k q) o (normal ++ important).
Proof.
  exact (fun V R Cond W c un req h hi ctx n im br k q o Hv Ht Hm Hd Hw S1 S2 P => prefix_block c un req h hi ctx n im P br k q o Hv Ht Hm Hd Hw S1 S2).
Qed.
Print Assumptions C55_prefixes_partial.
Example C55_prefixes_example :
  let out := minify_after new_targets all_used Nat.eqb [(InRule, before)] [] InRule sample sample_important in
  (forall q, used_from (prefix_gives false new_prefixes 7 q) Nothing (m_normal out ++ m_important out) = used_from (prefix_gives false new_prefixes 7 q) Nothing (sample ++ sample_important))
  /\ map (fun q => used_from (prefix_gives false new_prefixes 7 q) Nothing (sample ++ sample_important)) [WebKit; Moz; NoPrefix] = [Given (PrefixSpec.CVal 5); Keyword 3; Given (PrefixSpec.CVal 5)].
Proof.
  split; [intros q; apply C55_prefixes_partial; [exact Nat.eqb_eq|split; [reflexivity|left; reflexivity]|split; reflexivity|auto|exact sample_written|exact sample_steady|exact important_steady|apply sample_parsed]|reflexivity].
Qed.

(** Properties of the fallback handler, without prefixes *)
Theorem C55_fallbacks_partial :
  forall (V R Cond W : Type) (c : config V R Cond) (unused : nat -> bool) (req : R -> R -> bool) (h hi : list (context * list (decl (prop V R) R)))
         (ctx : context) (normal important : list (decl (prop V R) R)) (br : PrefixSpec.browser V R W) (k : nat) (o : given R (PrefixSpec.cell R W)),
    (forall v, compat c v = true -> PrefixSpec.knows br v = true) -> (forall u, PrefixSpec.knows_raw br u = true) ->
    (forall v, fst (fallbacks c v) = [] \/ PrefixSpec.knows br v = true) ->
    (forall v, PrefixSpec.knows br (snd (fallbacks c v)) = PrefixSpec.knows br v /\ PrefixSpec.value br (snd (fallbacks c v)) = PrefixSpec.value br v) ->
    PrefixSpec.proper_table (prefix_targets c) ->
    Forall (PrefixSpec.unprefixed k) (prefix_segment true normal ++ prefix_segment true important) ->
    Forall (parsed SAll) (normal ++ important) ->
    let out := minify_after c unused req h hi ctx normal important in
    used_from (prefix_gives true br k NoPrefix) o (m_normal out ++ m_important out) = used_from (prefix_gives true br k NoPrefix) o (normal ++ important).
Proof.
  exact (fun V R Cond W c un req h hi ctx n im br k o Hc Hr Hf Hs Ht Hu P => fallback_block c un req h hi ctx n im P br k o Hc Hr Hf Hs Ht Hu).
Qed.
Print Assumptions C55_fallbacks_partial.
Example C55_fallbacks_example :
  let out := minify_after new_targets all_used Nat.eqb [(InRule, before)] [] InRule sample sample_important in
  used_from (prefix_gives true new_prefixes 0 NoPrefix) Nothing (m_normal out ++ m_important out) = used_from (prefix_gives true new_prefixes 0 NoPrefix) Nothing (sample ++ sample_important)
  /\ used_from (prefix_gives true new_prefixes 0 NoPrefix) Nothing (sample ++ sample_important) = Given (PrefixSpec.CVal 3).
Proof.
  split; [apply C55_fallbacks_partial; auto; [discriminate|exact sample_unprefixed|apply sample_parsed]|reflexivity].
Qed.

(** Properties without a handler *)
Theorem C55_unhandled_partial :
  forall (V R Cond : Type) (c : config V R Cond) (unused : nat -> bool) (req : R -> R -> bool) (h hi : list (context * list (decl (prop V R) R)))
         (ctx : context) (normal important : list (decl (prop V R) R)) (n : nat) (o : given R R),
    Forall (parsed SAll) (normal ++ important) ->
    let out := minify_after c unused req h hi ctx normal important in
    used_from (free_gives n) o (m_normal out ++ m_important out) = used_from (free_gives n) o (normal ++ important).
Proof. exact (fun V R Cond c un req h hi ctx n im k o P => free_block c un req h hi ctx n im k o P). Qed.
Print Assumptions C55_unhandled_partial.
Example C55_unhandled_example :
  let out := minify_after new_targets all_used Nat.eqb [(InRule, before)] [] InRule sample sample_important in
  used_from (free_gives 0) Nothing (m_normal out ++ m_important out) = used_from (free_gives 0) Nothing (sample ++ sample_important)
  /\ used_from (free_gives 0) Nothing (sample ++ sample_important) = Given 9.
Proof. split; [apply C55_unhandled_partial; apply sample_parsed|reflexivity]. Qed.

(** [direction] and [unicode-bidi], when their values were parsed *)
Theorem C55_direction_partial :
  forall (V R Cond : Type) (c : config V R Cond) (unused : nat -> bool) (req : R -> R -> bool) (h hi : list (context * list (decl (prop V R) R)))
         (ctx : context) (normal important : list (decl (prop V R) R)) (o : given R nat),
    let out := minify_after c unused req h hi ctx normal important in
    (Forall (parsed SDirection) (normal ++ important) -> direction_from o (m_normal out ++ m_important out) = direction_from o (normal ++ important))
    /\ (Forall (parsed SBidi) (normal ++ important) -> bidi_from o (m_normal out ++ m_important out) = bidi_from o (normal ++ important)).
Proof.
  exact (fun V R Cond c un req h hi ctx n im o => conj (direction_block c un req h hi ctx n im o) (bidi_block c un req h hi ctx n im o)).
Qed.
Print Assumptions C55_direction_partial.
Example C55_direction_example :
  let out := minify_after new_targets all_used Nat.eqb [(InRule, before)] [] InRule sample sample_important in
  direction_from Nothing (m_normal out ++ m_important out) = Given 1 /\ bidi_from Nothing (m_normal out ++ m_important out) = Given 1.
Proof.
  cbn zeta. destruct (C55_direction_partial nat nat nat new_targets all_used Nat.eqb [(InRule, before)] [] InRule sample sample_important Nothing) as [H1 H2].
  split; [rewrite (H1 (sample_parsed _))|rewrite (H2 (sample_parsed _))]; reflexivity.
Qed.

(** Custom properties, when the values in the block need no [@supports] rules *)
Theorem C55_custom_partial :
  forall (V R Cond X : Type) (c : config V R Cond) (unused : nat -> bool) (req : R -> R -> bool) (h hi : list (context * list (decl (prop V R) R)))
         (ctx : context) (normal important : list (decl (prop V R) R)) (value : R -> X) (name : nat) (o : option X),
    unused name = false -> (forall u v, req u v = true -> u = v) ->
    (forall u, In (Custom name u) (normal ++ important) -> value (snd (raw_fallbacks c u)) = value u) ->
    let out := minify_after c unused req h hi ctx normal important in
    custom_from value name o (m_normal out ++ m_important out) = custom_from value name o (normal ++ important).
Proof.
  exact (fun V R Cond X c un req h hi ctx n im value name o U Hr H => custom_block c un req h hi ctx n im value name o U Hr H).
Qed.
Print Assumptions C55_custom_partial.
Example C55_custom_example :
  let out := minify_after new_targets all_used Nat.eqb [(InRule, before)] [] InRule sample sample_important in
  custom_from (fun u => u) 0 None (m_normal out ++ m_important out) = Some 6.
Proof.
  cbn zeta. rewrite C55_custom_partial; [reflexivity|reflexivity|intros a b E; apply Nat.eqb_eq; exact E|]. intros u I. cbn in I.
  repeat destruct I as [I|I]; try discriminate I; try (injection I as <-; reflexivity). destruct I.
Qed.

(** ** What the code gets wrong *)
(** A parsed [direction] is moved behind an unparsed one *)
Theorem C55_direction_refuted :
  exists l : list (decl (prop nat nat) nat),
    direction_from Nothing (m_normal (in_rule new_targets l)) = Given 1 /\ direction_from Nothing l = Tokens 5.
Proof. exact (ex_intro _ [Direction 1; Unparsed SDirection 5] (conj eq_refl eq_refl)). Qed.
Print Assumptions C55_direction_refuted.
(** An unparsed [direction] before [all] is lost *)
Theorem C55_direction_reset_refuted :
  exists l : list (decl (prop nat nat) nat),
    direction_from Nothing (m_normal (in_rule new_targets l)) = Nothing /\ direction_from Nothing l = Tokens 5.
Proof. exact (ex_intro _ [Unparsed SDirection 5; All 0] (conj eq_refl eq_refl)). Qed.
Print Assumptions C55_direction_reset_refuted.
(** An unparsed [all] is moved before the declarations that the handlers hold *)
Theorem C55_all_refuted :
  exists l : list (decl (prop nat nat) nat),
    used_from (side_gives 0 ltr new_sides SideModel.Top) Nothing (m_normal (in_rule new_targets l)) = Given (SideSpec.CVal 1)
    /\ used_from (side_gives 0 ltr new_sides SideModel.Top) Nothing l = Tokens 5.
Proof. exact (ex_intro _ [Plain (Sides 0 (SideModel.DAll 1 1 1 1)); Unparsed SAll 5] (conj eq_refl eq_refl)). Qed.
Print Assumptions C55_all_refuted.
(** [all] does not take back rules that were added for declarations before it *)
Theorem C55_dir_rules_refuted :
  exists l : list (decl (prop nat nat) nat),
    used_from (side_gives 0 ltr new_sides SideModel.Left) Nothing (with_rules false (in_rule old_targets l)) = Given (SideSpec.CVal 1)
    /\ used_from (side_gives 0 ltr new_sides SideModel.Left) Nothing l = Keyword 0.
Proof.
  exact (ex_intro _ [Plain (Sides 0 (SideModel.DLog SideModel.InlineStart 1)); Plain (Sides 0 (SideModel.DSide SideModel.Top 2)); All 0] (conj eq_refl eq_refl)).
Qed.
Print Assumptions C55_dir_rules_refuted.
(** Nor does a later declaration of the same custom property *)
Theorem C55_supports_refuted :
  exists l : list (decl (prop nat nat) nat),
    custom_from (fun u => u) 0 None (with_rules false (in_rule new_targets l)) = Some 10 /\ custom_from (fun u => u) 0 None l = Some 4.
Proof. exact (ex_intro _ [Custom 0 10; Custom 0 4] (conj eq_refl eq_refl)). Qed.
Print Assumptions C55_supports_refuted.
(** In a style attribute the value of a custom property is replaced by its fallback, and no rule has the
    original *)
Theorem C55_attribute_refuted :
  exists l : list (decl (prop nat nat) nat),
    let out := minify_after new_targets all_used Nat.eqb [] [] InAttribute l [] in
    custom_from (fun u => u) 0 None (with_rules false out) = Some 3 /\ custom_from (fun u => u) 0 None l = Some 10.
Proof. exact (ex_intro _ [Custom 0 10] (conj eq_refl eq_refl)). Qed.
Print Assumptions C55_attribute_refuted.
(** The text of a block depends on the blocks before it *)
Theorem C55_history_refuted :
  exists before l : list (decl (prop nat nat) nat),
    map show (m_normal (minify_after new_targets all_used Nat.eqb [] [] InRule l [])) = [[0; 0; 13; 2; 1; 1; 1]]
    /\ map show (m_normal (minify_after new_targets all_used Nat.eqb [(InRule, before)] [] InRule l [])) = [[0; 0; 13; 1; 1; 1; 1]; [0; 0; 11; 2]].
Proof.
  exact (ex_intro _ [Plain (Sides 0 (SideModel.DLog SideModel.InlineStart 1))]
    (ex_intro _ [Plain (Sides 0 (SideModel.DAll 1 1 1 1)); Plain (Sides 0 (SideModel.DSide SideModel.Top 2))] (conj eq_refl eq_refl))).
Qed.
Print Assumptions C55_history_refuted.
