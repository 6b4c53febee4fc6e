(** * More fuel does not change a result *)
From Coq Require Import List Bool Arith String Lia.
From Verif Require Import BundleModel BundleSpec.
Import ListNotations.

Section Fuel.
Context {M S : Type}.
Variable m_empty : M.
Section Graph.
Variables (css : nat -> list nat) (deps : nat -> list dep) (rules : nat -> list (srule M S)) (conds_of : nat -> conds M S)
  (parent : nat -> nat * nat).

Lemma order_css_more : forall r1 r2 : nat -> ostate -> option ostate,
    (forall s st x, r1 s st = Some x -> r2 s st = Some x) ->
    forall s l k st x, order_css r1 s k l st = Some x -> order_css r2 s k l st = Some x.
Proof.
  intros r1 r2 H s. induction l as [|d l IH]; intros k st x E; cbn in *; [assumption|].
  destruct (mem d (o_visited st)); [eauto|].
  destruct (r1 d (set_parent d s k st)) as [y|] eqn:Er; [|discriminate]. rewrite (H _ _ _ Er). eauto.
Qed.
Lemma order_deps_more : forall r1 r2 : nat -> ostate -> option ostate,
    (forall s st x, r1 s st = Some x -> r2 s st = Some x) ->
    forall s l k st x, order_deps r1 s k l st = Some x -> order_deps r2 s k l st = Some x.
Proof.
  intros r1 r2 H s. induction l as [|[d|u] l IH]; intros k st x E; cbn in *; [assumption| |eauto].
  destruct (r1 d (set_parent d s k st)) as [y|] eqn:Er; [|discriminate]. rewrite (H _ _ _ Er). eauto.
Qed.
Lemma order_more : forall n m s st x, n <= m -> order_process css deps n s st = Some x -> order_process css deps m s st = Some x.
Proof.
  induction n as [|n IH]; intros m s st x Hm E; [discriminate|]. destruct m as [|m]; [lia|].
  cbn [order_process] in *. destruct (mem s (o_visited st)); [assumption|].
  assert (R : forall s st x, order_process css deps n s st = Some x -> order_process css deps m s st = Some x)
    by (intros; apply IH; [lia|assumption]).
  destruct (order_css (order_process css deps n) s 0 (css s) _) as [y|] eqn:Ec; [|discriminate].
  rewrite (order_css_more _ _ R _ _ _ _ _ Ec). exact (order_deps_more _ _ R _ _ _ _ _ E).
Qed.

Notation istate := (istate M S).
Notation ires := (ires M S).
Definition refines (r1 r2 : nat -> istate -> ires) : Prop := forall s st, r1 s st <> IFuel -> r2 s st = r1 s st.
Lemma inline_css_more : forall r1 r2, refines r1 r2 ->
    forall s l k st, inline_css M S parent r1 s k l st <> IFuel -> inline_css M S parent r2 s k l st = inline_css M S parent r1 s k l st.
Proof.
  intros r1 r2 H s. induction l as [|d l IH]; intros k st E; cbn in *; [reflexivity|].
  destruct (is_parent parent d s k); [|auto].
  destruct (r1 d st) as [y| |] eqn:Er; [| |congruence]; rewrite (H d st), Er by congruence; auto.
Qed.
Lemma inline_rules_more : forall r1 r2, refines r1 r2 ->
    forall s rs k b ds st, fst (inline_rules M S parent r1 s k b ds rs st) <> IFuel ->
    inline_rules M S parent r2 s k b ds rs st = inline_rules M S parent r1 s k b ds rs st.
Proof.
  intros r1 r2 H s. induction rs as [|[t c|ns| |id ts] rs IH]; intros k b ds st E; cbn in *; try reflexivity.
  - destruct ds as [|[d|u] ds]; [reflexivity| |].
    + destruct (is_parent parent d s k).
      * destruct (r1 d st) as [y| |] eqn:Er; [| |cbn in E; congruence]; rewrite (H d st), Er by congruence; [|reflexivity].
        rewrite IH; [reflexivity|]. destruct (inline_rules M S parent r1 s (k + 1) true ds rs y); exact E.
      * rewrite IH; [reflexivity|]. destruct (inline_rules M S parent r1 s (k + 1) b ds rs st); exact E.
    + destruct b; [reflexivity|].
      rewrite IH; [reflexivity|]. destruct (inline_rules M S parent r1 s k false ds rs (push M S (OImport s u c) st)); exact E.
  - rewrite IH; [reflexivity|]. destruct (inline_rules M S parent r1 s k b ds rs (push M S (OLayer s ns) st)); exact E.
  - rewrite IH; [reflexivity|]. destruct (inline_rules M S parent r1 s k b ds rs st); exact E.
Qed.
Lemma inline_more : forall n m, n <= m ->
    refines (inline_process M S m_empty css deps rules conds_of parent n) (inline_process M S m_empty css deps rules conds_of parent m).
Proof.
  induction n as [|n IH]; intros m Hm s st E; [cbn in E; congruence|]. destruct m as [|m]; [lia|].
  specialize (IH m ltac:(lia)). cbn [inline_process] in *.
  set (st1 := IState (s :: i_taken st) (i_wrapped st) (i_out st)) in *. set (rs := if mem s (i_taken st) then [] else rules s) in *.
  rewrite (inline_css_more _ _ IH).
  2: { intros E2. apply E. rewrite E2. reflexivity. }
  destruct (inline_css M S parent _ s 0 (css s) st1) as [st2| |]; [|reflexivity|congruence].
  rewrite (inline_rules_more _ _ IH); [reflexivity|].
  intros E2. apply E. destruct (inline_rules M S parent _ s _ false (deps s) rs st2) as [x y]. cbn in E2. subst x. reflexivity.
Qed.
End Graph.

Lemma bundle_more : forall css_modules l n m, n <= m -> bundle_sheets M S m_empty css_modules n l <> IFuel ->
    bundle_sheets M S m_empty css_modules m l = bundle_sheets M S m_empty css_modules n l.
Proof.
  intros css_modules l n m Hm E. unfold bundle_sheets in *.
  destruct (order 0 (sheet_css M S css_modules l) (sheet_deps M S l) n) as [st|] eqn:Eo; [|congruence].
  unfold order in *. rewrite (order_more _ _ n m _ _ _ Hm Eo). unfold inline in *. apply inline_more; assumption.
Qed.
End Fuel.
