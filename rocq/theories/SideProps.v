(** * C20: minifying box sides *)
From Coq Require Import List Bool PeanoNat.
From Verif Require Import SideModel SideSpec SideProofs SideOrderProofs SideExamples.
Import ListNotations.

(** Where logical properties are supported: any sequence of declarations of one family, parsed or
    not, keeps the value of every side, in every writing mode, and adds no rules. *)
Theorem C20_supported_partial :
  forall (V R : Type) (veq : V -> V -> bool) (compat : V -> bool) (shorthand_category : category) (shorthand_supported : bool)
         (w : writing_mode) (br : browser V R) (c ci : category) (normal important : list (sdecl V R)),
    (forall a b, veq a b = true -> a = b) -> proper w -> modern br ->
    let r := minify_block V R veq compat shorthand_category true shorthand_supported c ci normal important in
    (forall x, used_block w br (m_normal r) (m_important r) x = used_block w br normal important x)
    /\ m_ltr r = [] /\ m_rtl r = [].
Proof.
  exact (fun V R veq compat shc bs w br c ci n i Hv Hw Hm =>
    block_used V R veq compat shc true bs w br Hv (fun v _ => proj1 Hm v) c ci n i eq_refl Hw
      (modern_fair V R shc br _ Hm) (modern_uniform V R br _ Hm)).
Qed.
Print Assumptions C20_supported_partial.
Example C20_supported_example :
  proper vertical /\ modern new_browser
  /\ mains (snd (minify nat nat Nat.eqb small Physical true true Physical mixed))
     = [DAll 1 1 1 1; DLog BlockStart 2; DSide Left 3; DSide Left 10; DInline 4 5; DRaw (ISide Top) 7]
  /\ mains (snd (minify nat nat Nat.eqb (fun _ => true) Physical true true Physical mixed))
     = [DAll 1 1 1 1; DLog BlockStart 2; DSide Left 10; DInline 4 5; DRaw (ISide Top) 7]
  /\ used vertical new_browser mixed Right = Some (CVal 2).
Proof.
  split; [intros a b H; destruct a, b; try reflexivity; discriminate H|]. split; [split; reflexivity|].
  repeat split; vm_compute; reflexivity.
Qed.

(** The same for a browser that ignores some values, as long as it knows all values of a shorthand
    or none of them, before and after; for [inset] it must know all of them. *)
Theorem C20_fallback_partial :
  forall (V R : Type) (veq : V -> V -> bool) (compat : V -> bool) (shorthand_category : category) (shorthand_supported : bool)
         (w : writing_mode) (br : browser V R) (c ci : category) (normal important : list (sdecl V R)),
    (forall a b, veq a b = true -> a = b) -> proper w -> (forall v, compat v = true -> knows br v = true) ->
    let r := minify_block V R veq compat shorthand_category true shorthand_supported c ci normal important in
    Forall (fun d => uniform br d /\ match d with DAll _ _ _ _ => shorthand_category = Physical \/ accepts br d = true | _ => True end)
      (normal ++ important) ->
    Forall (uniform br) (m_normal r ++ m_important r) ->
    (forall x, used_block w br (m_normal r) (m_important r) x = used_block w br normal important x)
    /\ m_ltr r = [] /\ m_rtl r = [].
Proof.
  exact (fun V R veq compat shc bs w br c ci n i Hv Hw Hc F U =>
    block_used V R veq compat shc true bs w br Hv Hc c ci n i eq_refl Hw F U).
Qed.
Print Assumptions C20_fallback_partial.
Example C20_fallback_example :
  (forall v, small v = true -> knows old_browser v = true) /\ Forall (uniform old_browser) mixed
  /\ used (horizontal false) old_browser [DAll 1 1 1 1; DLog BlockStart 2; DSide Left 3; DSide Left 10] Left = Some (CVal 3)
  /\ used (horizontal false) new_browser [DAll 1 1 1 1; DLog BlockStart 2; DSide Left 3; DSide Left 10] Left = Some (CVal 10).
Proof. split; [auto|]. split; [repeat constructor|]. split; vm_compute; reflexivity. Qed.

(** Where logical properties are compiled: the rules for the direction come after the block.  Each
    side keeps its value if inline declarations come last, or if no rules were added. *)
Theorem C20_compiled_partial :
  forall (V R : Type) (veq : V -> V -> bool) (compat : V -> bool) (shorthand_category : category) (shorthand_supported rtl : bool)
         (br : browser V R) (c : category) (l : list (sdecl V R)),
    (forall a b, veq a b = true -> a = b) -> (forall v, compat v = true -> knows br v = true) ->
    let out := snd (minify V R veq compat shorthand_category false shorthand_supported c l) in
    let rules := if rtl then rtls out else ltrs out in
    (inline_last l \/ rules = []) ->
    Forall (fun d => uniform br d /\ match d with DAll _ _ _ _ => shorthand_category = Physical \/ accepts br d = true | _ => True end) l ->
    Forall (uniform br) (mains out) ->
    forall x, used (horizontal rtl) br (mains out ++ rules) x = used (horizontal rtl) br l x.
Proof.
  exact (fun V R veq compat shc bs rtl br c l Hv Hc => compiled_used V R veq compat shc false bs br Hv Hc rtl c l eq_refl).
Qed.
Print Assumptions C20_compiled_partial.
Example C20_compiled_example :
  inline_last compiled
  /\ let out := snd (minify nat nat Nat.eqb small Physical false true Physical compiled) in
     mains out = [DAll 1 2 3 4; DSide Top 5; DSide Bottom 6]
     /\ ltrs out = [DSide Left 7; DSide Right 8] /\ rtls out = [DSide Right 7; DSide Left 8].
Proof.
  split; [|vm_compute; repeat split; reflexivity].
  exists [DSide Top 1; DSide Right 2; DSide Bottom 3; DSide Left 4; DBlock 5 6], [DInline 7 8]. split; [reflexivity|]. split.
  - intros d H. cbn in H. intuition; subst; reflexivity.
  - split; [intros d H; cbn in H; intuition; subst; reflexivity|].
    intros d e a H1 H2 H3 H4. destruct H1 as [<-|[]], H2 as [<-|[]]. cbn in *. intuition; subst; discriminate.
Qed.

(** ** What fails *)

(** Compiled: [margin-inline-start: 1; margin-left: 2] gives 1. *)
Theorem C20_later_physical_refuted :
  exists l : list (sdecl nat nat),
    let out := snd (minify nat nat Nat.eqb (fun _ => true) Physical false true Physical l) in
    used (horizontal false) new_browser l Left = Some (CVal 2)
    /\ used (horizontal false) new_browser (mains out ++ ltrs out) Left = Some (CVal 1).
Proof. exists [DLog InlineStart 1; DSide Left 2]. vm_compute. split; reflexivity. Qed.
Print Assumptions C20_later_physical_refuted.
(** Compiled: [margin-inline: 1 2; margin-top: 3; margin-inline: 4 4] gives 1. *)
Theorem C20_equal_inline_refuted :
  exists l : list (sdecl nat nat),
    let out := snd (minify nat nat Nat.eqb (fun _ => true) Physical false true Physical l) in
    used (horizontal false) new_browser l Left = Some (CVal 4)
    /\ used (horizontal false) new_browser (mains out ++ ltrs out) Left = Some (CVal 1).
Proof. exists [DInline 1 2; DSide Top 3; DInline 4 4]. vm_compute. split; reflexivity. Qed.
Print Assumptions C20_equal_inline_refuted.
(** Compiled: importance is lost, [margin-inline-start: 1 !important; margin-top: 2 !important;
    margin-inline-start: 3] gives 3. *)
Theorem C20_important_refuted :
  exists normal important : list (sdecl nat nat),
    let r := minify_block nat nat Nat.eqb (fun _ => true) Physical false true Physical Physical normal important in
    used_block (horizontal false) new_browser normal important Left = Some (CVal 1)
    /\ m_important r = [DSide Top 2]
    /\ used_block (horizontal false) new_browser (m_normal r ++ m_ltr r) (m_important r) Left = Some (CVal 3).
Proof. exists [DLog InlineStart 3], [DLog InlineStart 1; DSide Top 2]. vm_compute. repeat split; reflexivity. Qed.
Print Assumptions C20_important_refuted.
(** Four longhands become one shorthand even if some target does not know the last value, and then
    ignores all four. *)
Theorem C20_mixed_values_refuted :
  exists l : list (sdecl nat nat),
    let out := snd (minify nat nat Nat.eqb small Physical true true Physical l) in
    (forall v, small v = true -> knows old_browser v = true) /\ Forall (uniform old_browser) l
    /\ used (horizontal false) old_browser l Top = Some (CVal 1)
    /\ used (horizontal false) old_browser (mains out) Top = None.
Proof.
  exists [DSide Top 1; DSide Right 1; DSide Bottom 1; DSide Left 10]. split; [auto|]. split; [repeat constructor|]. vm_compute. split; reflexivity.
Qed.
Print Assumptions C20_mixed_values_refuted.
(** [inset-block-start: 1; inset: 10] loses the fallback. *)
Theorem C20_inset_refuted :
  exists l : list (sdecl nat nat),
    let out := snd (minify nat nat Nat.eqb small Logical true true Physical l) in
    (forall v, small v = true -> knows old_browser v = true) /\ Forall (uniform old_browser) l /\ Forall (uniform old_browser) (mains out)
    /\ used (horizontal false) old_browser l Top = Some (CVal 1)
    /\ used (horizontal false) old_browser (mains out) Top = None.
Proof.
  exists [DLog BlockStart 1; DAll 10 10 10 10]. split; [auto|]. split; [repeat constructor|]. vm_compute. split; [repeat constructor|]. split; reflexivity.
Qed.
Print Assumptions C20_inset_refuted.
