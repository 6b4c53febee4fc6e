(** * Examples for whole blocks *)
From Coq Require Import List Bool PeanoNat.
From Verif Require SideModel ShortModel SideSpec ShortSpec PrefixSpec.
From Verif Require Import PrefixModel BlockModel BlockSpec BlockHandlers BlockValueSpec.
Import ListNotations.
Import SideModel(sdecl, DSide, DLog, DAll, Top, Left, InlineStart, InlineEnd).

Definition small (v : nat) : bool := Nat.ltb v 10.
Definition no_targets : targets := Targets false false None.
(** Tokens from 10 on are replaced by 3, and given back under condition 0 *)
Definition lower (u : nat) : list (nat * nat) * nat := if small u then ([], u) else ([(0, u)], 3).
(** Browsers that know logical properties, and browsers that do not *)
Definition new_targets : config nat nat nat :=
  Config Nat.eqb small (fun _ => true) (fun _ => true) (fun v => ([], v)) lower true no_targets (Nat.eqb 0).
Definition old_targets : config nat nat nat :=
  Config Nat.eqb small (fun _ => false) (fun _ => false) (fun v => ([], v)) lower true no_targets (Nat.eqb 0).
Definition all_used (_ : nat) : bool := false.
Notation block := (list (decl (prop nat nat) nat)).

Definition new_sides : SideSpec.browser nat nat := SideSpec.Browser (fun _ => true) (fun _ => true).
Definition new_values : ShortSpec.browser nat nat nat nat := ShortSpec.Browser (fun _ => true) (fun _ => true) (fun v => v) (fun u => u).
Definition new_prefixes : PrefixSpec.browser nat nat nat := PrefixSpec.Browser (fun _ => true) (fun _ => true) (fun v => v).
Definition ltr : SideSpec.writing_mode := SideSpec.horizontal false.

(** [margin], [outline], [gap] and [transition-duration] (7), with [direction], custom properties and
    [all] between them *)
Definition before : block := [Plain (Sides 0 (DLog InlineStart 1)); Plain (Prefixed false 7 1 (single WebKit)); Direction 0].
Definition sample : block :=
  [ Plain (Sides 0 (DAll 9 9 9 9)); Custom 0 4; Direction 1; All 3;
    Plain (Sides 0 (DAll 1 2 3 4)); Plain (Prefixed false 7 5 (single WebKit)); Plain (Short 0 (ShortModel.DLong 0 6)); Plain (Free 0 8);
    Plain (Sides 0 (DSide Left 5)); Plain (Pairs 0 (ShortModel.DLong 0 1)); Plain (Prefixed true 0 2 (single NoPrefix)); Custom 1 5;
    Plain (Prefixed false 7 5 (single NoPrefix)); Plain (Pairs 0 (ShortModel.DLong 1 2)); Plain (Short 0 (ShortModel.DRaw None 7)); Plain (Free 0 9);
    Plain (Sides 0 (DLog InlineStart 6)); Plain (Short 0 (ShortModel.DLong 2 4)); Plain (Prefixed true 0 3 (single NoPrefix)); Custom 0 6; Bidi 2 ].
Definition sample_important : block := [Plain (Sides 0 (DSide Top 7)); Plain (Pairs 0 (ShortModel.DLong 1 3)); Bidi 1].
(** A declaration with the numbers in it *)
Definition show_side (d : sdecl nat nat) : list nat :=
  match d with
  | DSide Left v => [10; v] | DSide _ v => [11; v] | DLog _ v => [12; v] | DAll a b c d => [13; a; b; c; d] | _ => []
  end.
Definition show_short (d : ShortModel.decl nat nat) : list nat :=
  match d with
  | ShortModel.DLong k v => [20; k; v] | ShortModel.DShort f => [21; f 0; f 1] | ShortModel.DRaw None u => [22; u] | ShortModel.DRaw (Some k) u => [23; k; u]
  end.
Definition show (d : decl (prop nat nat) nat) : list nat :=
  match d with
  | Plain (Sides f d) => 0 :: f :: show_side d
  | Plain (Short f d) => 1 :: f :: show_short d
  | Plain (Pairs f d) => 2 :: f :: show_short d
  | Plain (Prefixed h k v s) => [3; k; v; if webkit s then 1 else 0; if none s then 1 else 0]
  | Plain (Free n u) => [4; n; u]
  | Direction v => [5; v]
  | Bidi v => [6; v]
  | All kw => [7; kw]
  | Unparsed _ u => [8; u]
  | Custom n u => [9; n; u]
  | _ => []
  end.
Definition in_rule (c : config nat nat nat) (l : block) : minified (prop nat nat) nat nat := minify_after c all_used Nat.eqb [] [] InRule l [].
(** The block and the rules for one direction, and for browsers where a condition holds *)
Definition with_rules (dir : bool) (m : minified (prop nat nat) nat nat) : block :=
  m_normal m ++ map snd (filter (fun r => match fst r with Ltr => negb dir | Rtl => dir | If _ => true end) (m_rules m)).

Lemma ltr_proper : SideSpec.proper ltr.
Proof. intros [] []; cbn; auto; discriminate. Qed.
Lemma sample_parsed p : Forall (parsed p) (sample ++ sample_important).
Proof. repeat constructor. Qed.
Lemma sample_wf : Forall wf_decl (sample ++ sample_important).
Proof. repeat constructor. Qed.
Lemma sample_written : Forall (PrefixSpec.written 7) (prefix_segment false sample ++ prefix_segment false sample_important).
Proof. repeat constructor; intros _; eexists; reflexivity. Qed.
Lemma sample_steady : PrefixSpec.steady PrefixSpec.alone new_prefixes 7 (prefix_segment false sample).
Proof.
  intros l1 v p l2 E w U D. change (prefix_segment false sample) with [Parsed 7 5 (single WebKit); Parsed 7 5 (single NoPrefix) : PrefixModel.decl nat nat] in E.
  destruct l1 as [|d [|d2 [|d3 l1]]]; cbn in E; try discriminate E.
  - cbn in U. discriminate U.
  - destruct p; cbn in E; try discriminate E. injection E as <- <- <-. cbn in U. discriminate U.
Qed.
Lemma important_steady : PrefixSpec.steady PrefixSpec.alone new_prefixes 7 (prefix_segment false sample_important).
Proof. intros l1 v p l2 E. destruct l1; discriminate E. Qed.
Lemma sample_unprefixed : Forall (PrefixSpec.unprefixed 0) (prefix_segment true sample ++ prefix_segment true sample_important).
Proof. repeat constructor. Qed.
