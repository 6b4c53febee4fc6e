(** * Sheets, browsers and configurations for the checks beside the theorems *)
From Coq Require Import List Bool String PeanoNat NArith Lia.
From Verif Require Import MinifyModel MinifySpec.
Import ListNotations.
Local Open Scope list_scope.
Local Open Scope string_scope.

(** Selectors: 0-9 are classes, 50 has an unused class, from 100 on they are new.
    Properties: 0 color, 1 width, 2 a custom property; longhands have the same numbers. *)
Definition d (p v : nat) : decl := {| d_id := p; d_val := v |}.
Definition rule_of (ss : list nat) (b : block) : style := {| sels := ss; vpx := vp_empty; blk := b; source := 0 |}.
Definition normal (ss : list nat) (l : list decl) : rule := Style (rule_of ss (l, [])) [].

(** Of the declarations of one property only the last is kept. *)
Fixpoint last_only (l : list decl) : list decl :=
  match l with
  | [] => []
  | x :: t => if existsb (fun y => (d_id y =? d_id x)%nat) t then last_only t else x :: last_only t
  end.

(** No targets; condition 0 is never true, 1 is written as 3; class 50 and the name "gone" are unused. *)
Definition plain : config := {|
  compat := forallb (fun s => (s <? 100)%nat);
  upd_prefix := fun l => (l, vp_empty);
  equiv := sels_eqb;
  split_sels := fun l => (l, []);
  compile_sel := false;
  mdecl := fun b => (last_only (fst b), last_only (snd b));
  mkf := fun b => b;
  tr := fun q => match q with CMedia 1 => CMedia 3 | _ => q end;
  never := fun q => match q with CMedia 0 => true | _ => false end;
  unused := fun l => negb (is_nil l) && forallb (fun s => (s =? 50)%nat) l;
  unused_name := fun n => (n =? "gone")%string;
  css_modules := false
|}.

Definition in_unused (ctx : list frame) : bool :=
  existsb (fun f => match f with FStyle _ l => negb (is_nil l) && forallb (fun s => (s =? 50)%nat) l | FWrap _ => false end) ctx.
(** The element matches the selectors in [yes], each with specificity [1000]; from 100 on the browser knows
    only those in [new]. *)
Definition browser (yes new : list nat) : world := {|
  matches := fun _ ctx s =>
    if (s =? 50)%nat || in_unused ctx then None else if existsb (Nat.eqb s) yes then Some 1000%N else None;
  known := fun _ s => (s <? 100)%nat || existsb (Nat.eqb s) new;
  holds := fun q => match q with CMedia n | CSupports n | CContainer n => Nat.odd n end;
  sets := fun x q => if (d_id x =? q)%nat then Some (d_val x) else None;
  frames := fun b => b
|}.

Definition value (x : decl) (q : nat) : option nat := if (d_id x =? q)%nat then Some (d_val x) else None.
Lemma last_only_none q l x : d_id x = q -> existsb (fun y => (d_id y =? d_id x)%nat) l = true -> last_some (fun d => value d q) l <> None.
Proof.
  intros E. induction l as [|y l IH]; [discriminate|]. cbn [existsb last_some]. intros H.
  destruct (existsb (fun y => (d_id y =? d_id x)%nat) l) eqn:EX.
  - specialize (IH eq_refl). destruct (last_some (fun d => value d q) l); [discriminate | now destruct IH].
  - destruct (last_some (fun d => value d q) l); [discriminate|]. cbn [orelse].
    rewrite orb_false_r in H. unfold value. rewrite E in H. rewrite H. discriminate.
Qed.
Lemma last_only_value q l : last_some (fun d => value d q) (last_only l) = last_some (fun d => value d q) l.
Proof.
  induction l as [|x l IH]; [reflexivity|]. cbn [last_only last_some].
  destruct (existsb (fun y => (d_id y =? d_id x)%nat) l) eqn:EX.
  - rewrite IH. destruct (Nat.eq_dec (d_id x) q) as [E|E].
    + pose proof (last_only_none q l x E EX) as H. destruct (last_some (fun d => value d q) l); [reflexivity | now destruct H].
    + destruct (last_some (fun d => value d q) l); [reflexivity|]. cbn [orelse]. unfold value. apply Nat.eqb_neq in E. rewrite E. reflexivity.
  - cbn [last_some]. rewrite IH. reflexivity.
Qed.

Lemma plain_faithful yes new : faithful plain (browser yes new).
Proof.
  constructor.
  - intros b q. split; apply last_only_value.
  - intros x y q E. cbn. rewrite E. destruct (d_id y =? q)%nat; [discriminate | reflexivity].
  - reflexivity.
  - intros [[|[|n]]|n|n]; reflexivity.
  - intros [[|n]|n|n]; discriminate || reflexivity.
  - intros l p s H I. cbn in *. rewrite forallb_forall in H. rewrite (H s I). reflexivity.
  - intros p ctx s. cbn [browser matches].
    assert (E : in_unused (map plain_frame ctx) = in_unused ctx); [|rewrite E; reflexivity].
    unfold in_unused. induction ctx as [|f ctx IH]; [reflexivity|]. cbn [map existsb]. rewrite IH. destruct f; reflexivity.
  - reflexivity.
  - intros l l' p ctx H. cbn in H. assert (E : l = l').
    { revert l' H. induction l as [|x l IH]; intros [|y l'] H; try discriminate H; [reflexivity|]. cbn in H. apply andb_prop in H.
      destruct H as (A & B). apply Nat.eqb_eq in A. rewrite A, (IH l' B). reflexivity. }
    rewrite E. reflexivity.
  - intros l p ctx H. cbn in H. apply andb_prop in H. destruct H as (_ & H). unfold list_spec.
    destruct (forallb (known (browser yes new) p) l); [|reflexivity].
    induction l as [|x l IH]; [reflexivity|]. cbn [forallb] in H. apply andb_prop in H. destruct H as (A & B).
    cbn [map fold_right]. rewrite (IH B). cbn [browser matches]. rewrite A. reflexivity.
  - intros l p ctx ctx' p' s H. cbn [browser matches]. cbn [plain unused] in H.
    assert (E : in_unused (ctx' ++ FStyle p l :: ctx) = true).
    { unfold in_unused. rewrite existsb_app. cbn [existsb]. rewrite H. cbn. rewrite orb_true_r. reflexivity. }
    rewrite E, orb_true_r. reflexivity.
Qed.
Lemma plain_untargeted : untargeted plain.
Proof. split; [reflexivity|]. split; [reflexivity|]. intros l. left. reflexivity. Qed.

(** ** A sheet that is tidy and gives the minifier something to do *)
Definition rich : list rule := [
  LayerS [["reset"]; ["theme"]];
  normal [1] [d 0 5];
  LayerB (Some ["theme"]) [normal [1] [d 0 7; d 1 1]; LayerB (Some ["dark"]) [normal [1] [d 1 2]]];
  normal [2] [d 1 3];
  Keyf "spin" vp_only_none 1;
  normal [1] [d 0 6];
  normal [1] [d 1 4; d 0 8];
  Cond (CMedia 1) [normal [1] [d 1 9]];
  Cond (CMedia 3) [normal [1; 50] [d 2 9]];
  Cond (CMedia 0) [normal [1] [d 2 1]];
  normal [50] [d 0 1];
  LayerB (Some ["theme"]) [Style (rule_of [1] ([d 1 5], [d 1 6])) [normal [2] [d 0 9]]];
  LayerB (Some ["reset"]) [normal [1] [d 2 7]];
  Keyf "spin" vp_only_none 2;
  Keyf "gone" vp_only_none 3;
  Prop_ "--x" 1;
  Other 4;
  Prop_ "--x" 2
].
Definition rich_result : list rule := match minify plain 5 false rich with Some (l, _) => l | None => [] end.
Definition rich_log : log := match minify plain 5 false rich with Some (_, n) => n | None => [] end.

(** ** Sheets that minification changes *)
(** [.a{color:red!important} .b{width:3px} .a{color:blue}] *)
Definition important_lost : list rule := [
  Style (rule_of [1] ([], [d 0 1])) []; normal [2] [d 1 3]; normal [1] [d 0 2]].
(** [.x{color:red} .a{color:blue} .a{color:red} .a{color:green}] *)
Definition own_key : list rule := [normal [3] [d 0 1]; normal [1] [d 0 2]; normal [1] [d 0 1]; normal [1] [d 0 3]].
(** [.a{color:red} .b{width:3px} .a{color:new}], read by a browser that does not know the new value 100 *)
Definition fallback_lost : list rule := [normal [1] [d 0 1]; normal [2] [d 1 3]; normal [1] [d 0 100]].
Definition old_values : world := {|
  matches := fun _ _ s => if (s =? 1)%nat then Some 1000%N else None;
  known := fun _ _ => true; holds := fun _ => true;
  sets := fun x q => if (d_id x =? q)%nat && (d_val x <? 100)%nat then Some (d_val x) else None; frames := fun b => b |}.
(** Selectors 60, 61 and 62 are [.a::placeholder], [.a::-webkit-input-placeholder] and [.a::-moz-placeholder].
    A rule that is printed for one prefix prints that prefix if it is the one of the selector, and else
    none (src/selector.rs 1162-1166). *)
Definition own_prefix (s : nat) : prefix := match s with 61 => PWebKit | 62 => PMoz | _ => PNone end.
Definition printed (p : option prefix) (s : nat) : prefix :=
  match p with
  | None => own_prefix s
  | Some x => if prefix_eqb x (own_prefix s) then x else PNone
  end.
Definition only (p : prefix) : vp :=
  {| v_none := prefix_eqb p PNone; v_webkit := prefix_eqb p PWebKit; v_moz := prefix_eqb p PMoz; v_ms := prefix_eqb p PMs; v_o := prefix_eqb p PO |}.
Definition with_prefixes : config := {|
  compat := forallb (fun s => (s =? 60)%nat); upd_prefix := fun l => (l, match l with [s] => only (own_prefix s) | _ => vp_empty end);
  equiv := fun a b => (List.length a =? List.length b)%nat; split_sels := fun l => (l, []); compile_sel := false;
  mdecl := fun b => b; mkf := fun b => b; tr := fun q => q; never := fun _ => false; unused := fun _ => false;
  unused_name := fun _ => false; css_modules := false |}.
Definition old_firefox : world := {|
  matches := fun p _ s => if prefix_eqb (printed p s) PMoz then Some 1000%N else None;
  known := fun p s => prefix_eqb (printed p s) PMoz; holds := fun _ => true;
  sets := fun x q => if (d_id x =? q)%nat then Some (d_val x) else None; frames := fun b => b |}.
(** [.a::-webkit-input-placeholder{color:red} .a::-moz-placeholder{color:red}] *)
Definition two_prefixes : list rule := [normal [61] [d 0 1]; normal [62] [d 0 1]].
(** Targets that do not know selectors from 100 on: these are split off. *)
Definition with_targets : config := {|
  compat := forallb (fun s => (s <? 100)%nat); upd_prefix := fun l => (l, vp_empty); equiv := sels_eqb;
  split_sels := fun l => if forallb (fun s => (s <? 100)%nat) l then (l, [])
                         else (filter (fun s => (s <? 100)%nat) l, filter (fun s => negb (s <? 100)%nat) l);
  compile_sel := true; mdecl := fun b => b; mkf := fun b => b; tr := fun q => q; never := fun _ => false;
  unused := fun _ => false; unused_name := fun _ => false; css_modules := false |}.
(** [.a{color:red} .a, .b:new{width:1px}] *)
Definition split_off : list rule := [normal [1] [d 0 1]; normal [1; 100] [d 1 1]].
(** [@layer a; @media (true) { @layer b { .a {width:1px} } } @layer c {} @layer b;] *)
Definition layer_inside : list rule := [
  LayerS [["a"]]; Cond (CMedia 3) [LayerB (Some ["b"]) [normal [1] [d 0 1]]]; LayerS [["c"]];
  LayerB (Some ["c"]) [normal [1] [d 0 2]]].
(** [@layer a; @media (true) { @layer b { .a {color:red} } } @layer c; @layer a { .a {width:1px} }
    @media (true) { @layer c { .a {color:blue} } }] *)
Definition layer_statements : list rule := [
  LayerS [["a"]]; Cond (CMedia 3) [LayerB (Some ["b"]) [normal [1] [d 0 1]]]; LayerS [["c"]];
  Other 1; Cond (CMedia 3) [LayerB (Some ["c"]) [normal [1] [d 0 2]]]].
(** [@layer a { @layer x { .b {..} } } @layer a.b { .a {color:red} } @layer a { @layer c { .a {color:blue} } }] *)
Definition dotted_layers : list rule := [
  LayerB (Some ["a"]) [LayerB (Some ["x"]) [normal [2] [d 1 1]]]; LayerB (Some ["a"; "b"]) [normal [1] [d 0 1]];
  LayerB (Some ["a"]) [LayerB (Some ["c"]) [normal [1] [d 0 2]]]].
(** [@layer a { .a {color:red} } @media (true) { @layer a { .a {color:blue} } } @layer a { .a {color:green} }] *)
Definition layer_around : list rule := [
  LayerB (Some ["a"]) [normal [1] [d 0 1]]; Cond (CMedia 3) [LayerB (Some ["a"]) [normal [1] [d 0 2]]];
  LayerB (Some ["a"]) [normal [1] [d 0 3]]].
(** [@keyframes k {A} @media (true) { @keyframes k {B} } @keyframes k {C}] *)
Definition keyframes_around : list rule := [
  Keyf "k" vp_only_none 1; Cond (CMedia 3) [Keyf "k" vp_only_none 2]; Keyf "k" vp_only_none 3].
Definition property_around : list rule := [Prop_ "--k" 1; Cond (CMedia 3) [Prop_ "--k" 2]; Prop_ "--k" 3].
(** [.unused { :not(&) {color:red} }]: selector 51 is [:not(&)]. *)
Definition negated : list rule := [Style (rule_of [50] ([d 1 1], [])) [normal [51] [d 0 1]]].
Definition negating : world := {|
  matches := fun p ctx s => match s, ctx with 51, _ :: _ => Some 1000%N | _, _ => None end;
  known := fun _ _ => true; holds := fun _ => true;
  sets := fun x q => if (d_id x =? q)%nat then Some (d_val x) else None; frames := fun b => b |}.
Definition out (c : config) (l : list rule) : list rule := match minify c 5 false l with Some (x, _) => x | None => [] end.
Definition said (c : config) (l : list rule) : log := match minify c 5 false l with Some (_, n) => n | None => [] end.
Definition b1 := browser [1] [].

Lemma out_minifies c l : minify c 5 false l <> None -> minifies c l (out c l) (said c l).
Proof.
  intros H. exists 5. unfold out, said. destruct (minify c 5 false l) as [[x n]|]; [reflexivity | now destruct H].
Qed.
Ltac runs := apply out_minifies; vm_compute; discriminate.
Ltac tidies := repeat match goal with
  | |- _ /\ _ => split
  | |- True => exact I
  | |- plain_vp _ => left; reflexivity
  | |- exists x, [?s] = [x] => exists s; reflexivity
  | |- Forall _ _ => constructor
  | |- _ = _ => reflexivity
  | |- _ <> _ => discriminate
  | |- tidy _ _ => cbn [tidy normal rule_of]
  | |- all_tidy _ _ => cbn [all_tidy tidy]
  end.
Lemma rich_tidy : all_tidy Outer rich.
Proof. cbv [rich normal rule_of all_tidy tidy sels vpx]. tidies. Qed.
Lemma rich_runs : minifies plain rich (out plain rich) (said plain rich).
Proof. runs. Qed.
Lemma rich_proper : Forall proper (said plain rich).
Proof. vm_compute. constructor; [|constructor]. repeat split; discriminate. Qed.
Lemma important_lost_run : minifies plain important_lost (out plain important_lost) (said plain important_lost) /\ all_tidy Outer important_lost
  /\ never_popped (said plain important_lost)
  /\ cascaded b1 0 (sheet b1 (out plain important_lost)) <> cascaded b1 0 (sheet b1 important_lost).
Proof.
  split; [runs|]. split; [cbv [important_lost normal rule_of all_tidy tidy sels vpx]; tidies|].
  split; [vm_compute; intros [X|[]]; discriminate | vm_compute; discriminate].
Qed.
Lemma own_key_run : minifies plain own_key (out plain own_key) (said plain own_key) /\ all_tidy Outer own_key
  /\ Forall same_importance (said plain own_key)
  /\ cascaded b1 0 (sheet b1 (out plain own_key)) <> cascaded b1 0 (sheet b1 own_key).
Proof.
  split; [runs|]. split; [cbv [own_key normal rule_of all_tidy tidy sels vpx]; tidies|].
  split; [vm_compute; repeat constructor | vm_compute; discriminate].
Qed.

Lemma importance_refuted : exists c w l l' n q,
  faithful c w /\ untargeted c /\ all_tidy Outer l /\ minifies c l l' n /\ never_popped n
  /\ cascaded w q (sheet w l') <> cascaded w q (sheet w l).
Proof.
  exists plain, b1, important_lost, (out plain important_lost), (said plain important_lost), 0.
  destruct important_lost_run as (A & B & C & D). split; [apply plain_faithful|]. split; [apply plain_untargeted|]. exact (conj B (conj A (conj C D))).
Qed.
Lemma own_key_refuted : exists c w l l' n q,
  faithful c w /\ untargeted c /\ all_tidy Outer l /\ minifies c l l' n /\ Forall same_importance n
  /\ cascaded w q (sheet w l') <> cascaded w q (sheet w l).
Proof.
  exists plain, b1, own_key, (out plain own_key), (said plain own_key), 0.
  destruct own_key_run as (A & B & C & D). split; [apply plain_faithful|]. split; [apply plain_untargeted|]. exact (conj B (conj A (conj C D))).
Qed.
Lemma fallback_refuted : exists l l' n q,
  minifies plain l l' n /\ Forall proper n /\ cascaded old_values q (sheet old_values l') <> cascaded old_values q (sheet old_values l).
Proof.
  exists fallback_lost, (out plain fallback_lost), (said plain fallback_lost), 0. split; [runs|].
  split; [vm_compute; constructor; [repeat split; discriminate | constructor] | vm_compute; discriminate].
Qed.
Lemma prefixes_refuted : exists l l' n q,
  minifies with_prefixes l l' n /\ n = [] /\ cascaded old_firefox q (sheet old_firefox l') <> cascaded old_firefox q (sheet old_firefox l).
Proof.
  exists two_prefixes, (out with_prefixes two_prefixes), (said with_prefixes two_prefixes), 0. split; [runs|].
  split; [vm_compute; reflexivity | vm_compute; discriminate].
Qed.
Lemma split_refuted : exists l l' n q, let w := browser [100] [100] in
  minifies with_targets l l' n /\ n = [] /\ cascaded w q (sheet w l') <> cascaded w q (sheet w l).
Proof.
  exists split_off, (out with_targets split_off), (said with_targets split_off), 1. split; [runs|].
  split; [vm_compute; reflexivity | vm_compute; discriminate].
Qed.
Ltac plainly s := exists plain, b1, s, (out plain s), (said plain s).
Ltac plainly_done := split; [apply plain_faithful|]; split; [apply plain_untargeted|]; split; [runs|]; split; [vm_compute; reflexivity|];
  try (split; [vm_compute; reflexivity|]); vm_compute; discriminate.
Lemma layer_around_refuted : exists c w l l' n q,
  faithful c w /\ untargeted c /\ minifies c l l' n /\ n = [] /\ cascaded w q (sheet w l') <> cascaded w q (sheet w l).
Proof. plainly layer_around. exists 0. plainly_done. Qed.
Lemma layer_condition_refuted : exists c w l l' n,
  faithful c w /\ untargeted c /\ minifies c l l' n /\ n = [] /\ layers [] (sheet w l') <> layers [] (sheet w l).
Proof. plainly layer_statements. plainly_done. Qed.
Lemma layer_dotted_refuted : exists c w l l' n,
  faithful c w /\ untargeted c /\ minifies c l l' n /\ n = [] /\ layers [] (sheet w l') <> layers [] (sheet w l).
Proof. plainly dotted_layers. plainly_done. Qed.
Lemma keyframes_refuted : exists c w l l' n name,
  faithful c w /\ untargeted c /\ minifies c l l' n /\ n = [] /\ unused_name c name = false
  /\ keyframes_of name PNone (sheet w l') <> keyframes_of name PNone (sheet w l).
Proof. plainly keyframes_around. exists "k". plainly_done. Qed.
Lemma property_refuted : exists c w l l' n name,
  faithful c w /\ untargeted c /\ minifies c l l' n /\ n = [] /\ unused_name c name = false
  /\ registered name (sheet w l') <> registered name (sheet w l).
Proof. plainly property_around. exists "--k". plainly_done. Qed.
