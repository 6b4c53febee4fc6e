(** * Ordering and inlining do not depend on how the sheets are numbered *)
From Coq Require Import List Bool Arith String Lia.
From Verif Require Import BundleModel BundleSpec BundleOrderProofs BundleInlineProofs.
Import ListNotations.

Section Rename.
Context {M S : Type}.
Notation srule := (srule M S).
Notation conds := (conds M S).
Notation item := (item M S).
Notation istate := (istate M S).
Notation ires := (ires M S).
Variable m_empty : M.
Variable len : nat.
Variable g : nat -> nat.
Hypothesis g_inj : forall i j, i < len -> j < len -> g i = g j -> i = j.
Variables (cssI cssP : nat -> list nat) (depsI depsP : nat -> list dep)
  (rulesI rulesP : nat -> list srule) (condsI condsP : nat -> conds).
Definition ren_dep (d : dep) : dep := match d with DFile n => DFile (g n) | DExternal u => DExternal u end.
Hypothesis css_ok : forall i, i < len -> cssP (g i) = map g (cssI i) /\ Forall (fun d => d < len) (cssI i).
Hypothesis deps_ok : forall i, i < len -> depsP (g i) = map ren_dep (depsI i) /\ Forall (fun d => d < len) (dep_files (depsI i)).
Hypothesis rules_ok : forall i, i < len -> rulesP (g i) = rulesI i.
Hypothesis conds_ok : forall i, i < len -> condsP (g i) = condsI i.

Lemma eqb_ren : forall i j, i < len -> j < len -> Nat.eqb (g i) (g j) = Nat.eqb i j.
Proof.
  intros i j Hi Hj. destruct (Nat.eqb_spec i j) as [->|Hne]; [apply Nat.eqb_refl|].
  apply Nat.eqb_neq. intros E. apply Hne. apply g_inj; auto.
Qed.
Lemma mem_ren : forall i l, i < len -> Forall (fun d => d < len) l -> mem (g i) (map g l) = mem i l.
Proof.
  intros i l Hi Hl. induction Hl as [|x l Hx Hl IH]; [reflexivity|]. cbn. rewrite eqb_ren by assumption.
  f_equal. exact IH.
Qed.

(** ** Order *)
Record orel (a b : ostate) : Prop := {
  or_vis : o_visited b = map g (o_visited a);
  or_lt : Forall (fun d => d < len) (o_visited a);
  or_par : forall i, i < len -> fst (o_parent a i) < len /\ o_parent b (g i) = (g (fst (o_parent a i)), snd (o_parent a i)) }.
Definition oorel (x y : option ostate) : Prop :=
  match x, y with Some a, Some b => orel a b | None, None => True | _, _ => False end.
Lemma orel_set : forall a b d s k, orel a b -> d < len -> s < len -> orel (set_parent d s k a) (set_parent (g d) (g s) k b).
Proof.
  intros a b d s k [R1 R2 R3] Hd Hs. constructor; cbn; auto.
  intros i Hi. rewrite eqb_ren by assumption. destruct (Nat.eqb i d); [split; [assumption|reflexivity]|auto].
Qed.
Lemma orel_css : forall recI recP s, s < len -> (forall d a b, d < len -> orel a b -> oorel (recI d a) (recP (g d) b)) ->
    forall l k a b, Forall (fun d => d < len) l -> orel a b ->
    oorel (order_css recI s k l a) (order_css recP (g s) k (map g l) b).
Proof.
  intros recI recP s Hs HR. induction l as [|d l IH]; intros k a b Hl Hab; cbn; [exact Hab|].
  inversion Hl as [|? ? Hd Hl']; subst. pose proof Hab as [R1 R2 R3].
  rewrite R1, mem_ren by assumption. destruct (mem d (o_visited a)); [apply IH; auto|].
  specialize (HR d _ _ Hd (orel_set a b d s k Hab Hd Hs)).
  destruct (recI d (set_parent d s k a)), (recP (g d) (set_parent (g d) (g s) k b)); cbn in HR; try contradiction; auto.
Qed.
Lemma orel_deps : forall recI recP s, s < len -> (forall d a b, d < len -> orel a b -> oorel (recI d a) (recP (g d) b)) ->
    forall l k a b, Forall (fun d => d < len) (dep_files l) -> orel a b ->
    oorel (order_deps recI s k l a) (order_deps recP (g s) k (map ren_dep l) b).
Proof.
  intros recI recP s Hs HR. induction l as [|[d|u] l IH]; intros k a b Hl Hab; cbn; [exact Hab| |apply IH; auto].
  inversion Hl as [|? ? Hd Hl']; subst.
  specialize (HR d _ _ Hd (orel_set a b d s k Hab Hd Hs)).
  destruct (recI d (set_parent d s k a)), (recP (g d) (set_parent (g d) (g s) k b)); cbn in HR; try contradiction; auto.
Qed.
Lemma order_ren : forall n s a b, s < len -> orel a b ->
    oorel (order_process cssI depsI n s a) (order_process cssP depsP n (g s) b).
Proof.
  induction n as [|n IH]; intros s a b Hs Hab; [exact I|]. cbn [order_process].
  pose proof Hab as [R1 R2 R3]. rewrite R1, mem_ren by assumption.
  destruct (mem s (o_visited a)); [exact Hab|].
  assert (H1 : orel (OState (o_parent a) (s :: o_visited a)) (OState (o_parent b) (g s :: map g (o_visited a)))).
  { constructor; cbn; auto. }
  destruct (css_ok s Hs) as [-> Hc]. destruct (deps_ok s Hs) as [-> Hd].
  pose proof (orel_css _ _ s Hs IH _ 0 _ _ Hc H1) as H2.
  destruct (order_css (order_process cssI depsI n) s 0 (cssI s) _), (order_css (order_process cssP depsP n) (g s) 0 _ _);
    cbn in H2; try contradiction; [|exact I].
  rewrite map_length. apply (orel_deps _ _ s Hs IH); auto.
Qed.

(** ** Inline *)
Definition ren_item (it : item) : item :=
  match it with
  | OImport s u c => OImport (g s) u c
  | OLayer s ns => OLayer (g s) ns
  | OBody s w rs => OBody (g s) w rs
  end.
Definition item_src (it : item) : nat := match it with OImport s _ _ | OLayer s _ | OBody s _ _ => s end.
Record irel (a b : istate) : Prop := {
  ir_taken : i_taken b = map g (i_taken a);
  ir_taken_lt : Forall (fun d => d < len) (i_taken a);
  ir_wrapped : i_wrapped b = map g (i_wrapped a);
  ir_wrapped_lt : Forall (fun d => d < len) (i_wrapped a);
  ir_out : i_out b = map ren_item (i_out a);
  ir_out_lt : Forall (fun it => item_src it < len) (i_out a) }.
Definition iirel (x y : ires) : Prop :=
  match x, y with IOk a, IOk b => irel a b | IErr, IErr => True | IFuel, IFuel => True | _, _ => False end.
Variables parentI parentP : nat -> nat * nat.
Hypothesis par_ok : forall i, i < len -> fst (parentI i) < len /\ parentP (g i) = (g (fst (parentI i)), snd (parentI i)).

Lemma is_parent_ren : forall d s k, d < len -> s < len -> is_parent parentP (g d) (g s) k = is_parent parentI d s k.
Proof.
  intros d s k Hd Hs. unfold is_parent. destruct (par_ok d Hd) as [H1 ->]. cbn. rewrite eqb_ren by assumption. reflexivity.
Qed.
Lemma irel_push : forall a b it, irel a b -> item_src it < len -> irel (push M S it a) (push M S (ren_item it) b).
Proof.
  intros a b it [R1 R2 R3 R4 R5 R6] H. constructor; cbn; auto.
  - rewrite R5, map_app. reflexivity.
  - apply Forall_app; auto.
Qed.
Lemma irel_css : forall recI recP s, s < len -> (forall d a b, d < len -> irel a b -> iirel (recI d a) (recP (g d) b)) ->
    forall l k a b, Forall (fun d => d < len) l -> irel a b ->
    iirel (inline_css M S parentI recI s k l a) (inline_css M S parentP recP (g s) k (map g l) b).
Proof.
  intros recI recP s Hs HR. induction l as [|d l IH]; intros k a b Hl Hab; cbn; [exact Hab|].
  inversion Hl as [|? ? Hd Hl']; subst. rewrite is_parent_ren by assumption.
  destruct (is_parent parentI d s k); [|apply IH; auto].
  specialize (HR d a b Hd Hab). destruct (recI d a), (recP (g d) b); cbn in HR; try contradiction; auto.
Qed.
Lemma irel_rules : forall recI recP s, s < len -> (forall d a b, d < len -> irel a b -> iirel (recI d a) (recP (g d) b)) ->
    forall rs k fl ds a b, Forall (fun d => d < len) (dep_files ds) -> irel a b ->
    iirel (fst (inline_rules M S parentI recI s k fl ds rs a)) (fst (inline_rules M S parentP recP (g s) k fl (map ren_dep ds) rs b))
    /\ snd (inline_rules M S parentI recI s k fl ds rs a) = snd (inline_rules M S parentP recP (g s) k fl (map ren_dep ds) rs b).
Proof.
  intros recI recP s Hs HR. induction rs as [|r rs IH]; intros k fl ds a b Hds Hab; cbn; [split; [exact Hab|reflexivity]|].
  destruct r as [t c|ns| |id ts].
  - destruct ds as [|[d|u] ds]; cbn [map ren_dep]; [split; [exact I|reflexivity]| |].
    + inversion Hds as [|? ? Hd Hds']; subst. rewrite is_parent_ren by assumption.
      destruct (is_parent parentI d s k).
      * specialize (HR d a b Hd Hab). destruct (recI d a) as [a'| |], (recP (g d) b) as [b'| |]; cbn in HR; try contradiction;
          try (split; [exact I|reflexivity]).
        destruct (IH (k + 1) true ds a' b' Hds' HR) as [H1 H2].
        destruct (inline_rules M S parentI recI s (k + 1) true ds rs a'),
          (inline_rules M S parentP recP (g s) (k + 1) true (map ren_dep ds) rs b'); cbn in *. split; [assumption|congruence].
      * destruct (IH (k + 1) fl ds a b Hds' Hab) as [H1 H2].
        destruct (inline_rules M S parentI recI s (k + 1) fl ds rs a),
          (inline_rules M S parentP recP (g s) (k + 1) fl (map ren_dep ds) rs b); cbn in *. split; [assumption|congruence].
    + destruct fl; [split; [exact I|reflexivity]|].
      destruct (IH k false ds _ _ Hds (irel_push a b (OImport s u c) Hab Hs)) as [H1 H2]. cbn [ren_item] in *.
      destruct (inline_rules M S parentI recI s k false ds rs _),
        (inline_rules M S parentP recP (g s) k false (map ren_dep ds) rs _); cbn in *. split; [assumption|congruence].
  - destruct (IH k fl ds _ _ Hds (irel_push a b (OLayer s ns) Hab Hs)) as [H1 H2]. cbn [ren_item] in *.
    destruct (inline_rules M S parentI recI s k fl ds rs _),
      (inline_rules M S parentP recP (g s) k fl (map ren_dep ds) rs _); cbn in *. split; [assumption|congruence].
  - destruct (IH k fl ds a b Hds Hab) as [H1 H2].
    destruct (inline_rules M S parentI recI s k fl ds rs a),
      (inline_rules M S parentP recP (g s) k fl (map ren_dep ds) rs b); cbn in *. split; [assumption|congruence].
  - split; [exact Hab|reflexivity].
Qed.
Lemma inline_ren : forall n s a b, s < len -> irel a b ->
    iirel (inline_process M S m_empty cssI depsI rulesI condsI parentI n s a)
          (inline_process M S m_empty cssP depsP rulesP condsP parentP n (g s) b).
Proof.
  induction n as [|n IH]; intros s a b Hs Hab; [exact I|]. cbn [inline_process].
  pose proof Hab as [R1 R2 R3 R4 R5 R6].
  assert (H1 : irel (IState (s :: i_taken a) (i_wrapped a) (i_out a)) (IState (g s :: i_taken b) (i_wrapped b) (i_out b))).
  { constructor; cbn; auto. congruence. }
  destruct (css_ok s Hs) as [-> Hc]. destruct (deps_ok s Hs) as [-> Hd].
  assert (Em : mem (g s) (i_taken b) = mem s (i_taken a)) by (rewrite R1; apply mem_ren; assumption).
  rewrite Em, (rules_ok s Hs).
  set (rs := if mem s (i_taken a) then [] else rulesI s).
  pose proof (irel_css _ _ s Hs IH _ 0 _ _ Hc H1) as H2.
  destruct (inline_css M S parentI _ s 0 (cssI s) _) as [a2| |], (inline_css M S parentP _ (g s) 0 _ _) as [b2| |];
    cbn in H2; try contradiction; try exact I.
  rewrite map_length.
  destruct (irel_rules _ _ s Hs IH rs (List.length (cssI s)) false (depsI s) a2 b2 Hd H2) as [H3 H4].
  destruct (inline_rules M S parentI _ s _ false (depsI s) rs a2) as [ra xa],
    (inline_rules M S parentP _ (g s) _ false (map ren_dep (depsI s)) rs b2) as [rb xb]. cbn in H3, H4.
  destruct ra as [a3| |], rb as [b3| |]; cbn in H3; try contradiction; try exact I.
  cbn. destruct H3 as [Q1 Q2 Q3 Q4 Q5 Q6]. constructor; cbn; auto.
  - congruence.
  - rewrite Q5, map_app. cbn. rewrite Q3, mem_ren by assumption. rewrite (conds_ok s Hs). congruence.
  - apply Forall_app; auto.
Qed.
End Rename.
