(** * C68: borders that are merged are drawn as the declarations say *)
From Coq Require Import List Bool.
From Verif Require Import SideModel SideSpec SideProofs BorderModel BorderSpec BorderOrderProofs BorderImageProofs SideExamples BorderExamples.
Import ListNotations.

(** Where logical borders are supported, each side has the width, style and colour that it had, whatever is declared in the block, however the
    declarations are mixed, and whatever other rules declare ([o]); nothing goes to rules for a direction.  If border-block and the like are not
    supported, only where lines are horizontal.  Missing: browsers that do not know some of the values; border images. *)
Theorem C68_supported_partial :
  forall (V R M : Type) (mean : V -> M) (veq : V -> V -> bool) (compat : V -> bool) (get_fallbacks : list V -> list (list V) * list V),
    (forall a b, veq a b = true -> mean a = mean b) -> honest mean get_fallbacks ->
  forall (shorthand_supported : bool) (w : writing_mode) (c ci : category) (normal important : list (decl V R)) (o : option (cell R M)) (s : side) (k : key),
    proper w -> shorthand_supported = true \/ is_horizontal w ->
    let out := minify V R veq compat get_fallbacks true shorthand_supported c normal in
    let out' := minify V R veq compat get_fallbacks true shorthand_supported ci important in
    used_from mean w (mains out ++ mains out') o (T s k) = used_from mean w (normal ++ important) o (T s k)
    /\ forall rtl, dirs rtl (out ++ out') = [].
Proof. exact block_used. Qed.
Print Assumptions C68_supported_partial.
Example C68_supported_example :
  proper vertical /\ honest id same
  /\ mains (output all true true
       [DBorder (Border3 1 2 3); DOne (L InlineStart) Width 4; DPair Inline Color 5 5; DOne (P Top) Style 7; DRaw (IOne (P Left) Color) 8; DRect Style 2 2 2 2])
     = [DBorder (Border3 1 2 3); DPair Inline Color 5 5; DOne (L InlineStart) Width 4; DOne (P Top) Style 7; DRaw (IOne (P Left) Color) 8; DRect Style 2 2 2 2].
Proof. split; [intros [] []; cbn; congruence|]. split; [intros l; reflexivity|]. vm_compute. reflexivity. Qed.
Example C68_merge_example :
  mains (output all true true
     [DRect Width 1 1 1 1; DRect Style 2 2 2 2; DOne (P Top) Color 3; DOne (P Right) Color 4; DOne (P Bottom) Color 3; DOne (P Left) Color 3])
  = [DBorder (Border3 1 2 3); DOne (P Right) Color 4].
Proof. vm_compute. reflexivity. Qed.

(** Compiled: the same in horizontal text of either direction, if logical declarations come last and all targets know their values.
    Missing: blocks where physical declarations come after logical ones; see C68_later_physical_refuted. *)
Theorem C68_compiled_partial :
  forall (V R M : Type) (mean : V -> M) (veq : V -> V -> bool) (compat : V -> bool) (get_fallbacks : list V -> list (list V) * list V),
    (forall a b, veq a b = true -> mean a = mean b) -> honest mean get_fallbacks ->
  forall (shorthand_supported rtl : bool) (c : category) (pre post : list (decl V R)) (o : option (cell R M)) (s : side) (k : key),
    Forall physical pre -> Forall (logical compat) post ->
    let out := minify V R veq compat get_fallbacks false shorthand_supported c (pre ++ post) in
    used_from mean (horizontal rtl) (mains out ++ dirs rtl out) o (T s k) = used_from mean (horizontal rtl) (pre ++ post) o (T s k).
Proof. exact compiled_used. Qed.
Print Assumptions C68_compiled_partial.
Example C68_compiled_example :
  let l := [DBorder (Border3 1 2 3); DSide (L InlineStart) (Border3 4 5 6); DPair Block Width 7 8] in
  let out := output all false false l in
  Forall physical (firstn 1 l) /\ Forall (logical all) (skipn 1 l)
  /\ mains out = [DBorder (Border3 1 2 3); DOne (P Top) Width 7; DOne (P Bottom) Width 8]
  /\ dirs false out = [DSide (P Left) (Border3 4 5 6)] /\ dirs true out = [DSide (P Right) (Border3 4 5 6)].
Proof. vm_compute. repeat split; repeat constructor. Qed.

(** The longhands of border-image that are declared after the last border shorthand have the values that were declared last,
    if they are parsed and all targets know them. *)
Theorem C68_image_partial :
  forall (V R M : Type) (mean : V -> M) (veq : V -> V -> bool) (compat : V -> bool) (get_fallbacks : list V -> list (list V) * list V)
         (logical_supported shorthand_supported : bool) (w : writing_mode) (c : category) (l : list (decl V R)) (i : ikey) (v : V) (o : option (cell R M)),
    Forall (plain_image compat) l -> last_image mean w l i v ->
    used_from mean w (mains (minify V R veq compat get_fallbacks logical_supported shorthand_supported c l)) o (TI i) = Some (CVal (mean v)).
Proof. exact images_used. Qed.
Print Assumptions C68_image_partial.
Example C68_image_example :
  let l := [DImageOne Slice 9; DBorder (Border3 1 2 3); DImageOne Source 4; DRect Color 5 6 5 5] in
  Forall (plain_image all) l /\ last_image (R := nat) id (horizontal false) l Source 4
  /\ mains (output all true true l) = [DBorder (Border3 1 2 5); DOne (P Right) Color 6; DImageOne Source 4].
Proof.
  split; [repeat constructor|]. split; [|vm_compute; reflexivity]. exists [DImageOne Slice 9; DBorder (Border3 1 2 3)], (DImageOne Source 4), [DRect Color 5 6 5 5].
  split; [reflexivity|]. split; [intros d [<-|[]]; reflexivity|]. split; reflexivity.
Qed.

(** The longhands of border-image that are not declared after the last border are those that border gives, or, if border is dropped, those from other
    rules; an image that was declared before border in the block does not come back. *)
Theorem C68_image_gone_partial :
  forall (V R M : Type) (mean : V -> M) (veq : V -> V -> bool) (compat : V -> bool) (get_fallbacks : list V -> list (list V) * list V)
         (logical_supported shorthand_supported : bool) (w : writing_mode) (c : category) (l1 : list (decl V R)) (b : border V) (l2 : list (decl V R))
         (i : ikey) (o : option (cell R M)),
    Forall (plain_image compat) (l1 ++ DBorder b :: l2) -> (forall d, In d l2 -> gives mean w d (TI i) = None) ->
    let used := used_from mean w (mains (minify V R veq compat get_fallbacks logical_supported shorthand_supported c (l1 ++ DBorder b :: l2))) o (TI i) in
    used = Some CInitial \/ used = o.
Proof. exact image_gone. Qed.
Print Assumptions C68_image_gone_partial.
Example C68_image_gone_example :
  let l := [DImageOne Slice 9; DBorder (Border3 1 2 3); DImageOne Source 4] in
  Forall (plain_image all) l /\ gives (R := nat) id (horizontal false) (DImageOne Source 4) (TI Slice) = None
  /\ mains (output all true true l) = [DBorder (Border3 1 2 3); DImageOne Source 4].
Proof. split; [repeat constructor|]. vm_compute. split; reflexivity. Qed.

(** ** What is not true *)
(** A border with var() does not take away the image that was declared before it: the image is printed behind it. *)
Theorem C68_image_raw_refuted :
  exists l : list (decl nat nat),
    used_from id (horizontal false) l None (TI Source) = Some CInitial
    /\ mains (output all true true l) = [DRaw IBorder 7; DImageOne Source 4]
    /\ used_from id (horizontal false) (mains (output all true true l)) None (TI Source) = Some (CVal 4).
Proof. exists [DImageOne Source 4; DRaw IBorder 7]. vm_compute. repeat split; reflexivity. Qed.
Print Assumptions C68_image_raw_refuted.
(** border-inline-width becomes border-left-width and border-right-width if targets know logical borders but not the shorthand, also where
    lines are vertical. *)
Theorem C68_vertical_refuted :
  exists l : list (decl nat nat), proper vertical
    /\ used_from id vertical l None (T Top Width) = Some (CVal 1)
    /\ mains (output all true false l) = [DOne (P Left) Width 1; DOne (P Right) Width 1].
Proof. exists [DPair Inline Width 1 1]. split; [intros [] []; cbn; congruence|]. vm_compute. split; reflexivity. Qed.
Print Assumptions C68_vertical_refuted.
(** border-width, border-style and border-color become border, which takes away the image that another rule, or this block, has given. *)
Theorem C68_image_reset_refuted :
  exists (l : list (decl nat nat)) (o : option (cell nat nat)),
    used_from id (horizontal false) l o (TI Source) = Some (CTokens 7)
    /\ mains (output all true true l) = [DRaw (IImageOne Source) 7; DBorder (Border3 1 2 3)]
    /\ used_from id (horizontal false) (mains (output all true true l)) o (TI Source) = Some CInitial.
Proof. exists [DRaw (IImageOne Source) 7; DRect Width 1 1 1 1; DRect Style 2 2 2 2; DRect Color 3 3 3 3], None. vm_compute. repeat split; reflexivity. Qed.
Print Assumptions C68_image_reset_refuted.
(** border followed by four sides that all differ is dropped, and does not take away the image any more. *)
Theorem C68_image_kept_refuted :
  exists l : list (decl nat nat),
    used_from id (horizontal false) l (Some (CVal 9)) (TI Source) = Some CInitial
    /\ used_from id (horizontal false) (mains (output all true true l)) (Some (CVal 9)) (TI Source) = Some (CVal 9).
Proof.
  exists [DBorder (Border3 1 1 1); DSide (P Top) (Border3 1 2 3); DSide (P Right) (Border3 4 5 6); DSide (P Bottom) (Border3 7 8 9); DSide (P Left) (Border3 10 11 12)].
  vm_compute. split; reflexivity.
Qed.
Print Assumptions C68_image_kept_refuted.
(** An image that not all targets know is pushed behind its fallback, and both before the border that then takes them away. *)
Theorem C68_image_fallback_refuted :
  exists l : list (decl nat nat),
    used_from id (horizontal false) l None (TI Slice) = Some (CVal 5)
    /\ used_from id (horizontal false) (mains (output (fun v => Nat.ltb v 10) true true l)) None (TI Slice) = Some CInitial.
Proof. exists [DBorder (Border3 1 2 3); DImage 4 5 6 7 8; DImageOne Source 10]. vm_compute. split; reflexivity. Qed.
Print Assumptions C68_image_fallback_refuted.
(** Compiled: a physical declaration after a logical one loses. *)
Theorem C68_later_physical_refuted :
  exists l : list (decl nat nat), let out := output all false true l in
    used_from id (horizontal false) l None (T Left Width) = Some (CVal 2)
    /\ used_from id (horizontal false) (mains out ++ dirs false out) None (T Left Width) = Some (CVal 1).
Proof. exists [DOne (L InlineStart) Width 1; DOne (P Left) Width 2]. vm_compute. split; reflexivity. Qed.
Print Assumptions C68_later_physical_refuted.
(** Not compiled: with all four sides complete, logical shorthands are printed for targets that do not know logical borders. *)
Theorem C68_not_compiled_refuted :
  exists l : list (decl nat nat), mains (output all false false l) = [DBorder (Border3 1 2 3); DPair Inline Width 4 5] /\ dirs false (output all false false l) = [].
Proof. exists [DAxis Block (Border3 1 2 3); DSide (L InlineStart) (Border3 4 2 3); DSide (L InlineEnd) (Border3 5 2 3)]. vm_compute. split; reflexivity. Qed.
Print Assumptions C68_not_compiled_refuted.
(** A border that not all targets know replaces its fallback. *)
Theorem C68_fallback_refuted :
  exists b b' : border nat, let l := [DBorder b; DBorder b'] : list (decl nat nat) in mains (output (fun v => Nat.ltb v 10) true true l) = [DBorder b'].
Proof. exists (Border3 1 2 3), (Border3 10 2 3). vm_compute. reflexivity. Qed.
Print Assumptions C68_fallback_refuted.
