(** * C38, C39, C40, C52 and C53: targets *)
From Coq Require Import List Bool String Ascii NArith.
From Verif Require Import TargetsTable TargetsModel TargetsSpec TargetsProofs TargetsExamples.
Import ListNotations.
Local Open Scope string_scope.
Local Open Scope list_scope.
Local Open Scope N_scope.

(** ** C38: targets from a list of browsers *)

(** Every listed version of a known browser is at or above the target. *)
Theorem C38_at_or_above_partial :
  forall (l : list (string * string)) (name version : string) (b : browser) (v : N * N * N),
    In (name, version) l -> In (name, b) known_names -> written version v -> words v ->
    exists bs w, from_distribs l = Some bs /\ bs b = Some w /\ version_le (version_of w) v.
Proof. exact (fun l name s b v I K W X => distribs_target l name s v b I K W X). Qed.
Print Assumptions C38_at_or_above_partial.
(** Every target is a listed version. *)
Theorem C38_listed_partial :
  forall (l : list (string * string)) (bs : browsers) (b : browser) (w : N),
    from_distribs l = Some bs -> bs b = Some w ->
    exists name version, In (name, version) l /\ In (name, b) known_names
      /\ forall v, written version v -> bytes v -> version_of w = v.
Proof. exact distribs_listed. Qed.
Print Assumptions C38_listed_partial.
(** There are no targets only if no known browser is listed with a version. *)
Theorem C38_none_partial :
  forall l, from_distribs l = None ->
    forall name version v b, In (name, version) l -> In (name, b) known_names -> written version v -> words v -> False.
Proof. exact distribs_none. Qed.
Print Assumptions C38_none_partial.
Example C38_example :
  option_map list_of (from_distribs distribs) = Some [None; Some (ver 119 0 1); None; None; None; Some (ver 15 2 0); None; None; None]
  /\ written "15.2-15.3" (15, 2, 0) /\ words (15, 2, 0) /\ In ("ios_saf", IosSaf) known_names.
Proof.
  split; [vm_compute; reflexivity|]. split; [|split; [repeat split|cbn; tauto]].
  right. exists "15.2", "15.3". split; [reflexivity|]. apply (dot_minor "15" "2" 15 2).
  - apply (num_more "1" 1 5); [apply (num_one 1); reflexivity|reflexivity].
  - apply (num_one 2). reflexivity.
Qed.
(** Parts of a version above 255 wrap around: Chrome 300 gives Chrome 44, which is not listed. *)
Theorem C38_wrap_refuted :
  exists l bs w, from_distribs l = Some bs /\ bs Chrome = Some w /\ l = [("chrome", "300")] /\ version_of w = (44, 0, 0).
Proof. eexists [("chrome", "300")], _, _. split; [reflexivity|]. split; [reflexivity|]. split; [reflexivity|vm_compute; reflexivity]. Qed.
Print Assumptions C38_wrap_refuted.
(** Browsers that are not known are ignored without an error. *)
Theorem C38_unknown_refuted : from_distribs [("ie_mob", "10"); ("and_uc", "12.12"); ("kaios", "2.5")] = None.
Proof. exact eq_refl. Qed.
Print Assumptions C38_unknown_refuted.

(** ** C40: which features are compiled *)

(** A feature that is not both included and excluded is compiled exactly when it is not excluded, and
    it is included or some target lacks it. *)
Theorem C40_compiled_partial :
  forall (t : targets) (row : list (browser * option N)) (f : flag),
    t_include t f = false \/ t_exclude t f = false ->
    (should_compile t row (only [f]) = true
     <-> t_exclude t f = false /\ (t_include t f = true \/ exists b v, targets_browser t b v /\ ~ has_row row b v)).
Proof. exact compile_iff. Qed.
Print Assumptions C40_compiled_partial.
(** More browsers, older versions, more included and fewer excluded features never turn it off. *)
Theorem C40_monotone :
  forall (t t' : targets) (row : list (browser * option N)) (f : flag),
    wider (t_browsers t) (t_browsers t') ->
    (forall x, t_include t x = true -> t_include t' x = true) -> (forall x, t_exclude t' x = true -> t_exclude t x = true) ->
    should_compile t row (only [f]) = true -> should_compile t' row (only [f]) = true.
Proof. exact compile_mono. Qed.
Print Assumptions C40_monotone.
(** A feature is partially compatible exactly when some target has it. *)
Theorem C40_partially :
  forall (row : list (browser * option N)) (bs : browsers),
    is_partially_compatible row bs = true <-> exists b v, bs b = Some v /\ has_row row b v.
Proof. exact partially_iff. Qed.
Print Assumptions C40_partially.
Example C40_example :
  should_compile (target [(Chrome, ver 119 0 0); (Safari, ver 17 5 0)]) (compat_row "LightDark") (only [LightDark]) = true
  /\ should_compile (target [(Chrome, ver 123 0 0); (Safari, ver 17 5 0)]) (compat_row "LightDark") (only [LightDark]) = false
  /\ is_partially_compatible (compat_row "LightDark") (of_list [(Chrome, ver 119 0 0); (Safari, ver 17 5 0)]) = true
  /\ wider (Some (of_list [(Chrome, ver 123 0 0)])) (Some (of_list [(Chrome, ver 119 0 0); (Safari, ver 17 5 0)])).
Proof.
  split; [vm_compute; reflexivity|]. split; [vm_compute; reflexivity|]. split; [vm_compute; reflexivity|].
  intros b v H. destruct b; vm_compute in H; try discriminate H. injection H as <-. eexists. split; [vm_compute; reflexivity|vm_compute; discriminate].
Qed.
(** A feature that is included and excluded is compiled. *)
Theorem C40_conflict_refuted :
  exists t, t_exclude t Nesting = true /\ should_compile t (compat_row "Nesting") (only [Nesting]) = true.
Proof. exists (Targets None (only [Nesting]) (only [Nesting])). split; vm_compute; reflexivity. Qed.
Print Assumptions C40_conflict_refuted.
(** Excluding nesting alone stops the compilation of all selectors, such as [:dir()]. *)
Theorem C40_selectors_refuted :
  exists t, t_exclude t DirSelector = false /\ should_compile t (compat_row "DirSelector") (only [DirSelector]) = true
    /\ should_compile_selectors t = false.
Proof.
  exists (Targets (Some (of_list [(Chrome, ver 90 0 0)])) none (only [Nesting])).
  split; [vm_compute; reflexivity|]. split; vm_compute; reflexivity.
Qed.
Print Assumptions C40_selectors_refuted.

(** ** C39: scopes of [@supports] *)

(** After a style sheet the targets are those before it, and each place sees the targets with just the
    features of the conditions around it excluded; so do the handlers. *)
Theorem C39_balanced :
  forall (t : targets) (r : rule),
    let (s, o) := visit r (Scope [] t t) in
    stack s = [] /\ same_targets (current s) t /\ same_targets (handler s) t /\ Forall2 (saw t) o (places [] r).
Proof. exact scopes. Qed.
Print Assumptions C39_balanced.
(** What is left alone inside [@supports] is supported by every browser that gets there, if the
    conditions have no custom properties and no variables. *)
Theorem C39_implied_partial :
  forall (t : targets) (r : rule) (u : ua) (x : seen),
    honest u -> In x (snd (visit r (Scope [] t t))) ->
    exists around, In (at_ x, around) (places [] r)
      /\ ((forall c, In c around -> var_free c /\ holds u c = true) ->
          forall f, t_exclude (by_rules x) f = true -> t_exclude t f = true \/ has u f = true).
Proof. exact inside_supported. Qed.
Print Assumptions C39_implied_partial.
Example C39_example :
  map show (snd (visit sheet (Scope [] (Targets None none (only [LightDark])) (Targets None none (only [LightDark])))))
  = [(1%nat, [LabColors; LightDark], [LabColors; LightDark]);
     (2%nat, [ColorFunction; LabColors; P3Colors; LightDark], [ColorFunction; LabColors; P3Colors; LightDark]);
     (3%nat, [LabColors; LightDark], [LabColors; LightDark]); (4%nat, [LightDark], [LightDark])]
  /\ map fst (places [] sheet) = [1%nat; 2%nat; 3%nat; 4%nat]
  /\ honest new_ua /\ holds new_ua p3_cond = true /\ var_free p3_cond /\ honest old_ua /\ holds old_ua lab_cond = false.
Proof.
  split; [vm_compute; reflexivity|]. split; [reflexivity|]. split; [intros p v _ _ t f _ _; reflexivity|]. split; [reflexivity|].
  split; [repeat split|]. split; [|reflexivity].
  intros p v A _ t f J K. exfalso. pose proof (proj1 (forallb_forall _ _) A t J) as Q. destruct t as [c| | | | | |]; try discriminate Q; [|inversion K].
  inversion K as [c' f' L| |]; subst. destruct c; try discriminate Q. inversion L.
Qed.
(** [@supports (--x: lab(...))] holds in browsers without lab(), which is then left alone inside. *)
Theorem C39_custom_refuted :
  exists u c, honest u /\ holds u c = true /\ c = CDecl true "--x" (Some [TColor Lab])
    /\ supported_features c LabColors = true /\ has u LabColors = false.
Proof.
  exists old_ua, (CDecl true "--x" (Some [TColor Lab])). split; [apply C39_example|]. repeat split.
Qed.
Print Assumptions C39_custom_refuted.
(** So does [@supports (color: var(--x, lab(...)))]. *)
Theorem C39_variable_refuted :
  exists u c, honest u /\ holds u c = true /\ c = CDecl false "color" (Some [TVar (Some [TColor Lab])])
    /\ supported_features c LabColors = true /\ has u LabColors = false.
Proof.
  exists old_ua, (CDecl false "color" (Some [TVar (Some [TColor Lab])])). split; [apply C39_example|]. repeat split.
Qed.
Print Assumptions C39_variable_refuted.
(** [(color: lab(...)) and (not (...))] implies a feature that is not used. *)
Theorem C39_exact_refuted :
  exists c, c = CAnd [lab_cond; CNot (CElse 0)] /\ var_free c
    /\ (forall u, honest u -> holds u c = true -> has u LabColors = true) /\ supported_features c LabColors = false.
Proof.
  eexists. split; [reflexivity|]. split; [repeat split|]. split; [|reflexivity].
  intros u Hu H. cbn in H. apply andb_true_iff in H. destruct H as [H _]. rewrite andb_false_r in H.
  apply (Hu "color" [TColor Lab] H eq_refl (TColor Lab)); [left; reflexivity|]. constructor. constructor.
Qed.
Print Assumptions C39_exact_refuted.

(** ** C52: vendor prefixes for the targets *)

(** The prefixes are those that the target versions themselves need, and none. *)
Theorem C52_exact :
  forall (row : list (browser * (option N * option N) * prefix)) (bs : browsers) (p : prefix),
    prefixes_for row bs p = true <-> p = NoPrefix \/ exists b v, bs b = Some v /\ needs row b v p.
Proof. exact prefixes_iff. Qed.
Print Assumptions C52_exact.
(** Newer versions get their prefix too if no range of versions for it begins after the target. *)
Theorem C52_newer_partial :
  forall (row : list (browser * (option N * option N) * prefix)) (bs : browsers) (b : browser) (v w : N) (p : prefix),
    bs b = Some v -> v <= w -> needs row b w p ->
    (forall r lo, In (b, r, p) row -> fst r = Some lo -> lo <= v) ->
    prefixes_for row bs p = true.
Proof. exact prefixes_newer. Qed.
Print Assumptions C52_newer_partial.
Example C52_example :
  let row := prefix_row "Animation" in let bs := of_list [(Chrome, ver 30 0 0); (Firefox, ver 60 0 0)] in
  map (prefixes_for row bs) [NoPrefix; WebKit; Moz; Ms; O] = [true; true; false; false; false]
  /\ needs row Chrome (ver 42 0 0) WebKit
  /\ forall r lo, In (Chrome, r, WebKit) row -> fst r = Some lo -> lo <= ver 30 0 0.
Proof.
  split; [vm_compute; reflexivity|]. split.
  - exists (Some 262144, Some 2752512). split; [vm_compute; tauto|]. split; intros x [= <-]; vm_compute; discriminate.
  - intros r lo H E. vm_compute in H. repeat (destruct H as [H|H]; [try discriminate H; injection H as <-; injection E as <-; vm_compute; discriminate|]). destruct H.
Qed.
(** Opera 12 gives transforms [-o-] only, and Opera 15 needs [-webkit-]; likewise for Edge 18 and the
    appearance property in Edge 80. *)
Theorem C52_newer_refuted :
  (prefixes_for (prefix_row "Transform") (of_list [(Opera, ver 12 0 0)]) WebKit = false
   /\ needs (prefix_row "Transform") Opera (ver 15 0 0) WebKit)
  /\ (prefixes_for (prefix_row "Appearance") (of_list [(Edge, ver 18 0 0)]) WebKit = false
      /\ needs (prefix_row "Appearance") Edge (ver 80 0 0) WebKit).
Proof.
  split; (split; [vm_compute; reflexivity|]).
  - exists (Some 983040, Some 1441792). split; [vm_compute; tauto|]. split; intros x [= <-]; vm_compute; discriminate.
  - exists (Some 5177344, Some 5439488). split; [vm_compute; tauto|]. split; intros x [= <-]; vm_compute; discriminate.
Qed.
Print Assumptions C52_newer_refuted.

(** ** C53: colours and their fallbacks *)

(** Every version of every target understands one of the colours that are printed, if none of the
    colour features are excluded and the colour has no keywords. *)
Theorem C53_understood_partial :
  forall (t : targets) (c : color),
    (forall f, In f [LabColors; OklabColors; P3Colors; ColorFunction] -> t_exclude t f = false) -> no_keyword c ->
    exists l c', get_fallbacks t c = Some (l, c')
      /\ exists d, In d (l ++ [c']) /\ forall b v w, targets_browser t b v -> v <= w -> understands b w d.
Proof. exact (fun t c H K => fallbacks_understood t H c K). Qed.
Print Assumptions C53_understood_partial.
Example C53_example :
  get_fallbacks (target [(Chrome, ver 90 0 0); (Safari, ver 15 0 0)]) Oklab = Some ([Rgb], Lab)
  /\ get_fallbacks (target [(Safari, ver 14 0 0)]) (LightDarkColor Lab Rgb) = Some ([LightDarkColor P3 P3], LightDarkColor Lab Rgb)
  /\ get_fallbacks (target [(Chrome, ver 120 0 0)]) (LightDarkColor Lab Oklab) = Some ([], LightDarkColor Lab Oklab)
  /\ no_keyword (LightDarkColor Lab Rgb).
Proof. repeat split; vm_compute; reflexivity. Qed.
(** [light-dark(currentColor, lab(...))] panics for targets without lab(). *)
Theorem C53_panic_refuted :
  exists t c, c = LightDarkColor Keyword Lab /\ t_browsers t <> None /\ get_fallbacks t c = None.
Proof. exists (target [(Chrome, ver 90 0 0)]), (LightDarkColor Keyword Lab). split; [reflexivity|]. split; [discriminate|vm_compute; reflexivity]. Qed.
Print Assumptions C53_panic_refuted.
