(** * C22: minifying shorthands and their longhands *)
From Coq Require Import List Bool PeanoNat.
From Verif Require Import ShortModel ShortSpec ShortProofs ShortExamples.
Import ListNotations.

(** outline, list-style and container: any sequence of declarations keeps the meaning of every
    longhand in a browser that knows all values; what stood before the block does not matter.  Unparsed
    values have no colours that need [@supports] rules. *)
Theorem C22_shorthand_partial :
  forall (V R Cond W X : Type) (n : nat) (compat : V -> bool) (fallback_key : option nat) (fallbacks : V -> list V * V)
         (raw_fallbacks : R -> list (Cond * R) * R) (br : browser V R W X) (l : list (decl V R)),
    0 < n -> modern br -> Forall (wf n) l ->
    (forall v, value br (snd (fallbacks v)) = value br v) ->
    (forall u, fst (raw_fallbacks u) = [] -> tokens br (snd (raw_fallbacks u)) = tokens br u) ->
    let out := minify V R Cond n compat fallback_key fallbacks raw_fallbacks l in
    supports out = [] ->
    forall k o, k < n -> used_from o n br (mains out) k = used_from o n br l k.
Proof.
  exact (fun V R Cond W X n compat fk fb rf br l Hn Hm Hw Hf Hr N k o L =>
    minify_used V R Cond W X n compat fk fb rf br Hn (fun v _ => proj1 Hm v) (fun v => or_intror (proj1 Hm v))
      (fun v => conj (eq_trans (proj1 Hm _) (eq_sym (proj1 Hm v))) (Hf v))
      (fun u E => conj (eq_trans (proj2 Hm _) (eq_sym (proj2 Hm u))) (Hr u E))
      l Hw (modern_uniform V R W X n br l Hm) (modern_uniform V R W X n br _ Hm) N k o L).
Qed.
Print Assumptions C22_shorthand_partial.
Example C22_shorthand_example :
  modern new_browser /\ Forall (wf 3) sample
  /\ map (show 3) (mains (minify nat nat nat 3 small (Some 2) lower no_raw sample))
     = [(3, [4; 2; 3]); (2, [5]); (2, [10]); (1, [107]); (3, [5; 6; 11])]
  /\ supports (minify nat nat nat 3 small (Some 2) lower no_raw sample) = []
  /\ map (used 3 new_browser sample) [0; 1; 2] = [Some (CVal 5); Some (CVal 6); Some (CVal 11)].
Proof.
  split; [split; reflexivity|]. split; [repeat constructor|]. split; [vm_compute; reflexivity|]. split; vm_compute; reflexivity.
Qed.

(** The same for a browser that ignores some values, if no fallbacks are generated for those and it
    knows all values of a shorthand or none of them, before and after. *)
Theorem C22_fallback_partial :
  forall (V R Cond W X : Type) (n : nat) (compat : V -> bool) (fallback_key : option nat) (fallbacks : V -> list V * V)
         (raw_fallbacks : R -> list (Cond * R) * R) (br : browser V R W X) (l : list (decl V R)),
    0 < n -> (forall v, compat v = true -> knows br v = true) -> Forall (wf n) l ->
    (forall v, fst (fallbacks v) = [] \/ knows br v = true) ->
    (forall v, knows br (snd (fallbacks v)) = knows br v /\ value br (snd (fallbacks v)) = value br v) ->
    (forall u, fst (raw_fallbacks u) = [] ->
       knows_raw br (snd (raw_fallbacks u)) = knows_raw br u /\ tokens br (snd (raw_fallbacks u)) = tokens br u) ->
    let out := minify V R Cond n compat fallback_key fallbacks raw_fallbacks l in
    Forall (uniform n br) l -> Forall (uniform n br) (mains out) -> supports out = [] ->
    forall k o, k < n -> used_from o n br (mains out) k = used_from o n br l k.
Proof.
  exact (fun V R Cond W X n compat fk fb rf br l Hn Hc Hw Hf Hs Hr U1 U2 N =>
    minify_used V R Cond W X n compat fk fb rf br Hn Hc Hf Hs Hr l Hw U1 U2 N).
Qed.
Print Assumptions C22_fallback_partial.
Example C22_fallback_example :
  Forall (uniform 3 old_browser) (firstn 5 sample)
  /\ map (show 3) (mains (minify nat nat nat 3 small None lower no_raw (firstn 5 sample))) = [(3, [4; 2; 3]); (2, [10]); (1, [107]); (0, [5])]
  /\ used 3 old_browser (firstn 5 sample) 2 = Some (CVal 3).
Proof.
  split; [|split; vm_compute; reflexivity].
  repeat constructor. intros j k Hj Hk. destruct j as [|[|[|j]]], k as [|[|[|k]]]; reflexivity.
Qed.

(** An unparsed value with colours that need [@supports] rules keeps its meaning if it comes last. *)
Theorem C22_supports_partial :
  forall (V R Cond W X : Type) (n : nat) (compat : V -> bool) (fallback_key : option nat) (fallbacks : V -> list V * V)
         (raw_fallbacks : R -> list (Cond * R) * R) (br : browser V R W X) (holds : Cond -> bool)
         (l : list (decl V R)) (k : option nat) (u : R),
    0 < n -> modern br -> (forall v, value br (snd (fallbacks v)) = value br v) ->
    (forall u, tokens br (seen_tokens holds (raw_fallbacks u)) = tokens br u) ->
    Forall (wf n) l ->
    supports (minify V R Cond n compat fallback_key fallbacks raw_fallbacks l) = [] ->
    let out := minify V R Cond n compat fallback_key fallbacks raw_fallbacks (l ++ [DRaw k u]) in
    forall j, j < n -> used n br (mains out ++ active holds (supports out)) j = used n br (l ++ [DRaw k u]) j.
Proof.
  exact (fun V R Cond W X n compat fk fb rf br holds l k u Hn Hm Hf Hs Hw =>
    trailing_used V R Cond W X n compat fk fb rf br holds Hn Hm Hf Hs l k u Hw).
Qed.
Print Assumptions C22_supports_partial.
Example C22_supports_example :
  let out := minify nat nat nat 3 small (Some 2) lower raw_lower (sample ++ [DRaw (Some 2) 12]) in
  supports (minify nat nat nat 3 small (Some 2) lower raw_lower sample) = []
  /\ map (show 3) (mains out) = [(3, [4; 2; 3]); (2, [5]); (2, [10]); (1, [107]); (3, [5; 6; 11]); (2, [103])]
  /\ map (fun p => show 3 (snd p)) (supports out) = [(2, [112])]
  /\ (forall u, tokens new_browser (seen_tokens (fun _ => true) (raw_lower u)) = tokens new_browser u).
Proof.
  split; [vm_compute; reflexivity|]. split; [vm_compute; reflexivity|]. split; [vm_compute; reflexivity|].
  intros u. unfold raw_lower. destruct (small u); reflexivity.
Qed.

(** overflow and gap: the meaning of both longhands is kept, and a browser that does not know the
    shorthand with two values understands the output if it understood the input. *)
Theorem C22_pair_partial :
  forall (V R W X : Type) (veq : V -> V -> bool) (two_values two : bool) (br : browser V R W X) (l : list (decl V R)),
    (forall a b, veq a b = true -> a = b) -> modern br -> (two_values = true -> two = true) -> Forall (wf 2) l ->
    let out := pair_minify V R veq two_values (Pair None None) l in
    (forall k o, k < 2 -> used_from o 2 br out k = used_from o 2 br l k)
    /\ (Forall (understood two) l -> Forall (understood two) out).
Proof.
  exact (fun V R W X veq tv two br l Hv Hm Ht Hw => conj
    (fun k o L => eq_trans (pair_minify_used V R W X veq tv br Hm l Hw (Pair None None) k o L)
       (f_equal (fun x => used_from x 2 br l k) (match Nat.eqb k 0 as b return (match (if b then @None V else None) with Some v => Some (CVal (value br v)) | None => o end = o) with true => eq_refl | false => eq_refl end)))
    (fun U => pair_minify_understood V R veq tv two Hv Ht l U (Pair None None))).
Qed.
Print Assumptions C22_pair_partial.
Example C22_pair_example :
  map (show 2) (pair_minify nat nat Nat.eqb false (Pair None None) [DLong 0 1; DLong 1 1; DRaw (Some 0) 7; DLong 1 2; DLong 0 3])
  = [(2, [1; 1]); (0, [107]); (0, [3]); (1, [2])].
Proof. vm_compute. reflexivity. Qed.

(** ** What fails *)

(** [overflow: hidden; overflow: clip] loses the fallback for a browser that does not know [clip]. *)
Theorem C22_overflow_refuted :
  exists l : list (decl nat nat),
    Forall (uniform 2 old_browser) l
    /\ used 2 old_browser l 0 = Some (CVal 1)
    /\ used 2 old_browser (pair_minify nat nat Nat.eqb true (Pair None None) l) 0 = None.
Proof.
  exists [DShort (fun _ => 1); DShort (fun _ => 10)]. split; [repeat constructor|]. vm_compute. split; reflexivity.
Qed.
Print Assumptions C22_overflow_refuted.
(** [outline-color: 1; outline: 1 2 10]: the fallback generated for the shorthand replaces the one
    that the author wrote for the longhand. *)
Theorem C22_author_fallback_refuted :
  exists l : list (decl nat nat),
    let out := mains (minify nat nat nat 3 small (Some 2) lower no_raw l) in
    used 3 old_browser l 2 = Some (CVal 1) /\ used 3 old_browser out 2 = Some (CVal 5).
Proof. exists [DLong 2 1; outline 1 2 10]. vm_compute. split; reflexivity. Qed.
Print Assumptions C22_author_fallback_refuted.
(** [outline: var(...); outline: 1 2 3], where the unparsed value needs an [@supports] rule: the rule
    comes last and wins. *)
Theorem C22_later_supports_refuted :
  exists l : list (decl nat nat),
    let out := minify nat nat nat 3 small (Some 2) lower raw_lower l in
    (forall u, tokens new_browser (seen_tokens (fun _ => true) (raw_lower u)) = tokens new_browser u)
    /\ used 3 new_browser l 2 = Some (CVal 3)
    /\ used 3 new_browser (mains out ++ active (fun _ => true) (supports out)) 2 = Some (CPart 12).
Proof.
  exists [DRaw None 12; outline 1 2 3]. split; [intros u; unfold raw_lower; destruct (small u); reflexivity|]. vm_compute. split; reflexivity.
Qed.
Print Assumptions C22_later_supports_refuted.
(** Three longhands become one shorthand even if some target does not know the last value, and then
    ignores all three. *)
Theorem C22_mixed_values_refuted :
  exists l : list (decl nat nat),
    let out := mains (minify nat nat nat 2 small None no_lower no_raw l) in
    Forall (uniform 2 old_browser) l
    /\ used 2 old_browser l 0 = Some (CVal 1) /\ used 2 old_browser out 0 = None.
Proof. exists [DLong 0 1; DLong 1 10]. split; [repeat constructor|]. vm_compute. split; reflexivity. Qed.
Print Assumptions C22_mixed_values_refuted.
