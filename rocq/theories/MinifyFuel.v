(** * The minifier always finishes, with one result *)
From Coq Require Import List Bool String PeanoNat NArith Lia.
From Verif Require Import MinifyModel MinifySpec MinifyTree MinifyProofs MinifyCalm.
Import ListNotations.
Local Open Scope list_scope.

(** How deep rules are nested. *)
Fixpoint depth (r : rule) : nat :=
  match r with
  | Style _ l | Cond _ l | Wrap _ l | LayerB _ l => S (list_max (map depth l))
  | LayerS _ => 1
  | _ => 0
  end.
Definition deep (l : list rule) : nat := list_max (map depth l).
Lemma deep_app a b : deep (a ++ b) = Nat.max (deep a) (deep b).
Proof. unfold deep. rewrite map_app. apply list_max_app. Qed.
Lemma deep_le l k : (deep l <= k)%nat <-> Forall (fun r => (depth r <= k)%nat) l.
Proof. unfold deep. rewrite list_max_le, Forall_map. reflexivity. Qed.

Section Fuel.
Variable c : config.

Lemma shallow_set k l i x : Forall (fun r => (depth r <= k)%nat) l -> (depth x <= k)%nat -> Forall (fun r => (depth r <= k)%nat) (set_nth i x l).
Proof. intros H HX. apply Forall_set_nth; assumption. Qed.
Lemma shallow_push k l x : Forall (fun r => (depth r <= k)%nat) l -> (depth x <= k)%nat -> Forall (fun r => (depth r <= k)%nat) (l ++ [x]).
Proof. intros H HX. apply Forall_app. split; [exact H | constructor; [exact HX | constructor]]. Qed.
Notation shallow k := (Forall (fun r => (depth r <= k)%nat)).
Lemma shallow_rev k l : shallow k l -> shallow k (rev l).
Proof. apply Forall_rev. Qed.

Lemma squeeze_shallow k before : forall s sn r n, squeeze c s sn before = (r, n) -> shallow k before -> (depth (Style s sn) <= k)%nat -> shallow k r.
Proof.
  induction before as [|b t IH]; intros s sn r n H HB HS; cbn [squeeze] in H; [injection H as <- _; constructor; [exact HS | constructor]|].
  assert (Base : (Style s sn :: b :: t, @nil note) = (r, n) -> shallow k r) by (intros E; injection E as <- _; constructor; assumption).
  destruct b as [p pn|?|? ?|? ?|? ?|?|? ? ?|? ?|? ?|?|]; try exact (Base H).
  destruct (merge c s sn p pn) as [[s' p']|]; [|exact (Base H)]. destruct (squeeze c p' pn t) as [r0 n0] eqn:EQ.
  injection H as <- _. exact (IH _ _ _ _ EQ (Forall_inv_tail HB) (Forall_inv HB)).
Qed.
Lemma try_merge_shallow k s sn l s' l' n : try_merge c s sn l = Some (s', l', n) -> shallow k l -> (depth (Style s sn) <= k)%nat -> shallow k l'.
Proof.
  unfold try_merge. intros H HL HS. apply shallow_rev in HL. destruct (rev l) as [|b t]; [discriminate|].
  destruct b as [p pn|?|? ?|? ?|? ?|?|? ? ?|? ?|? ?|?|]; try discriminate.
  destruct (merge c s sn p pn) as [[s0 p']|]; [|discriminate]. destruct (squeeze c p' pn t) as [r0 n0] eqn:EQ.
  injection H as _ <- _. apply shallow_rev. exact (squeeze_shallow k _ _ _ _ _ EQ (Forall_inv_tail HL) (Forall_inv HL)).
Qed.
Lemma push_style_shallow k st s sn : shallow k (rules st) -> (depth (Style s sn) <= k)%nat -> shallow k (rules (push_style c st s sn)).
Proof.
  intros HL HS. unfold push_style. pose proof (shallow_push _ _ _ HL HS) as HP. destruct (negb (is_nil sn)); [exact HP|].
  destruct (0 <? List.length (rules st))%nat; [|exact HP].
  destruct (entry_remove _ _ _ _) as [[i m]|]; [|exact HP].
  destruct (nth_error (rules st ++ [Style s sn]) i) as [[o on|?|? ?|? ?|? ?|?|? ? ?|? ?|? ?|?|]|]; try exact HP.
  destruct (negb (css_modules c) || (source s =? source o)%nat); [|exact HP]. apply shallow_set; [exact HP | cbn [depth]; lia].
Qed.
Lemma add_style_shallow k st s sn : shallow k (rules st) -> (depth (Style s sn) <= k)%nat -> shallow k (rules (add_style c st s sn)).
Proof.
  intros HL HS. unfold add_style. destruct (split_sels c (sels s)) as [keep rest]. destruct (upd_prefix c keep) as [ss v].
  set (s1 := {| sels := ss; vpx := v; blk := blk s; source := source s |}).
  assert (D : forall x, depth (Style x sn) = depth (Style s sn)) by reflexivity.
  assert (D0 : forall x own0, own0 = [] \/ own0 = sn -> (depth (Style x own0) <= k)%nat).
  { intros x own0 [->| ->]; [change (1 <= k)%nat; cbn [depth] in HS; lia | exact HS]. }
  assert (G : forall (merged : bool) s2 st2 (divide : bool) own clones, own = [] \/ own = sn -> shallow k (rules st2) ->
    let st3 := if merged || style_is_empty s2 own then st2 else push_style c st2 s2 own in
    shallow k (rules (if divide then push (with_rules st3 (rules st3 ++ map (fun x => Style x sn) clones)) (Style {| sels := sels s2; vpx := vpx s2; blk := ([], []); source := source s2 |} sn)
               else with_rules st3 (rules st3 ++ map (fun x => Style x sn) clones)))).
  { intros merged s2 st2 divide own0 clones HO H2 st3.
    assert (X : shallow k (rules st3 ++ map (fun x => Style x sn) clones)).
    { apply Forall_app. split.
      - unfold st3. destruct (merged || style_is_empty s2 own0); [exact H2 | apply push_style_shallow; [exact H2 | apply D0, HO]].
      - apply Forall_forall. intros r Hr. apply in_map_iff in Hr. destruct Hr as (x & <- & _). rewrite D. exact HS. }
    destruct divide; cbn [push with_rules rules]; [|exact X]. apply shallow_push; [exact X | rewrite D; exact HS]. }
  destruct (try_merge c s1 sn (rules st)) as [[[s' l'] n]|] eqn:EM; apply G.
  - destruct (negb (is_nil sn) && negb (is_nil (sels s')) && negb (is_nil (map (clone_for c s') rest))); [left | right]; reflexivity.
  - cbn [add_notes with_rules rules]. exact (try_merge_shallow k _ _ _ _ _ _ EM HL HS).
  - destruct (negb (is_nil sn) && negb (is_nil (sels s1)) && negb (is_nil (map (clone_for c s1) rest))); [left | right]; reflexivity.
  - exact HL.
Qed.

Section Rec.
Variable rec : bool -> list rule -> option (list rule * log).
Variable k : nat.
(** [rec] does lists less deep than [k] and does not make them deeper. *)
Hypothesis RD : forall parent l, (deep l < k)%nat -> exists l' n, rec parent l = Some (l', n) /\ (deep l' <= deep l)%nat.

Lemma inner_deep l d : (S (list_max (map depth l)) <= d)%nat -> (d <= k)%nat -> (deep l < k)%nat /\ (S (deep l) <= d)%nat.
Proof. unfold deep. lia. Qed.
Lemma step_done d parent st r : (d <= k)%nat -> shallow d (rules st) -> (depth r <= d)%nat ->
  exists st', step c rec parent st r = Some st' /\ shallow d (rules st').
Proof.
  intros HD HL HR. pose proof (shallow_push _ _ _ HL HR) as HP.
  destruct r as [s l|b|q l|w l|n l|n|n p b|n b|n b|n|]; cbn [step].
  - cbn [depth] in HR. destruct (inner_deep l d HR HD) as (H1 & H2). unfold step_style. destruct parent; [eauto|].
    destruct (unused c (sels s) && is_nil l); [eauto|].
    assert (X : exists l' n, (if is_nil l then Some ([], []) else rec (unused c (sels s)) l) = Some (l', n) /\ (deep l' <= deep l)%nat).
    { destruct (is_nil l); [exists [], []; split; [reflexivity | unfold deep at 1; cbn; lia] | apply RD, H1]. }
    destruct X as (l' & n & -> & HL'). destruct (unused c (sels s) && is_nil l'); [eauto|]. eexists. split; [reflexivity|].
    apply add_style_shallow; [exact HL|]. cbn [depth]. unfold deep in *. lia.
  - destruct parent; eexists; (split; [reflexivity|]); [exact HL | apply shallow_push; [exact HL | cbn [depth]; lia]].
  - cbn [depth] in HR. destruct (inner_deep l d HR HD) as (H1 & H2). unfold step_cond.
    assert (Alone : exists st', (match rec parent l with
      | None => None
      | Some (l', n) => if is_nil l' || never c (tr c q) then Some (add_notes st n) else Some (push (add_notes st n) (Cond (tr c q) l'))
      end) = Some st' /\ shallow d (rules st')).
    { destruct (RD parent l H1) as (l' & n & -> & HL'). destruct (is_nil l' || never c (tr c q)); eexists; (split; [reflexivity|]); [exact HL|].
      apply shallow_push; [exact HL | cbn [depth]; unfold deep in *; lia]. }
    unfold last_rule. destruct (rev (rules st)) as [|r t] eqn:EL; [exact Alone|].
    destruct r as [?|?|q0 l0|? ?|? ?|?|? ? ?|? ?|? ?|?|]; try exact Alone. destruct (cond_eqb q0 q); [|exact Alone].
    assert (E : rules st = rev t ++ [Cond q0 l0]) by (rewrite <- (rev_involutive (rules st)), EL; reflexivity).
    rewrite E in HL. apply Forall_app in HL. destruct HL as (HT & HC). apply Forall_inv in HC. cbn [depth] in HC.
    destruct (inner_deep l0 d HC HD) as (H3 & H4).
    destruct (RD parent (l0 ++ l)) as (l' & n & -> & HL'); [rewrite deep_app; lia|]. eexists. split; [reflexivity|].
    cbn [add_notes with_rules rules]. apply shallow_push; [exact HT|]. cbn [depth]. rewrite deep_app in HL'. unfold deep in *. lia.
  - cbn [depth] in HR. destruct (inner_deep l d HR HD) as (H1 & H2). unfold step_wrap.
    destruct (RD (match w with WStarting => parent | _ => false end) l H1) as (l' & n & -> & HL').
    assert (HW : shallow d (rules (push (add_notes st n) (Wrap w l')))).
    { apply shallow_push; [exact HL | cbn [depth]; unfold deep in *; lia]. }
    destruct w; [eauto | eauto|]. destruct (is_nil l'); eauto.
  - eexists. split; [reflexivity|]. unfold step_layer_block. destruct n as [n|]; [|exact HP].
    destruct (lookup name_eqb n (lmap st)) as [i|]; [|exact HP].
    destruct (nth_error (rules st) i) as [[?|?|? ?|? ?|? l'|?|? ? ?|? ?|? ?|?|]|] eqn:EN; try exact HP.
    apply shallow_set; [exact HL|]. rewrite Forall_forall in HL. pose proof (HL _ (nth_error_In _ _ EN)) as X. cbn [depth] in *.
    rewrite map_app, list_max_app. lia.
  - eexists. split; [reflexivity|]. cbn [depth] in HR. clear HP. revert st HL. induction n as [|x n IH]; intros st HL; [exact HL|].
    unfold step_layer_statement. cbn [fold_left]. change (fold_left step_layer_name n ?s) with (step_layer_statement s n). apply IH.
    unfold step_layer_name. destruct (lookup name_eqb x (lmap st)); [exact HL|]. apply shallow_push; [exact HL | exact HR].
  - eexists. split; [reflexivity|]. unfold step_keyframes. destruct (unused_name c n); [exact HL|].
    destruct (lookup String.eqb n (kmap st)) as [i|]; [|apply shallow_push; [exact HL | cbn [depth]; lia]].
    destruct (nth_error (rules st) i) as [[?|?|? ?|? ?|? ?|?|? ? ?|? ?|? ?|?|]|]; try (apply shallow_push; [exact HL | cbn [depth]; lia]).
    destruct (vp_eqb p0 p); [apply shallow_set; [exact HL | cbn [depth]; lia]|].
    destruct (body =? mkf c b)%nat; [apply shallow_set | apply shallow_push]; try exact HL; cbn [depth]; lia.
  - eexists. split; [reflexivity|]. unfold step_property. destruct (unused_name c n); [exact HL|].
    destruct (lookup String.eqb n (pmap st)); [apply shallow_set | apply shallow_push]; try exact HL; cbn [depth]; lia.
  - eexists. split; [reflexivity | exact HP].
  - eexists. split; [reflexivity | exact HP].
  - eexists. split; [reflexivity | exact HP].
Qed.
Lemma steps_done d parent l : (d <= k)%nat -> shallow d l -> forall st, shallow d (rules st) -> exists st', steps c rec parent st l = Some st' /\ shallow d (rules st').
Proof.
  intros HD HL. induction HL as [|r l Hr _ IH]; intros st HS; cbn [steps]; [eauto|].
  destruct (step_done d parent st r HD HS Hr) as (st1 & -> & H1). exact (IH st1 H1).
Qed.
Lemma finish_done d parent todo : (d <= k)%nat -> shallow d todo -> forall done declared statement n, shallow d done ->
  exists l' n', finish rec parent todo done declared statement n = Some (l', n') /\ shallow d l'.
Proof.
  intros HD HT. induction HT as [|r todo Hr _ IH]; intros done declared statement n HS; cbn [finish]; [eauto|].
  destruct r as [s l|b|q l|w l|nm l|nm|nm p b|nm b|nm b|nm|]; try (apply IH, shallow_push; [exact HS | exact Hr]).
  - cbn [depth] in Hr. destruct (inner_deep l d Hr HD) as (H1 & H2). destruct (RD parent l H1) as (l1 & n1 & -> & HL).
    assert (Hb : forall x, (depth (LayerB x l1) <= d)%nat) by (intros x; cbn [depth]; unfold deep in *; lia).
    assert (Hi : (depth Ignored <= d)%nat) by (cbn [depth]; lia).
    assert (Hs : forall x, (depth (LayerS x) <= d)%nat) by (intros x; cbn [depth]; lia).
    assert (He : forall x, (depth (LayerB x []) <= d)%nat) by (intros x; change (1 <= d)%nat; lia).
    destruct (is_nil l1); [|apply IH, shallow_push; [exact HS | apply Hb]].
    destruct nm as [nm|]; [|apply IH, shallow_push; [exact HS | exact Hi]].
    destruct (existsb (name_eqb nm) declared); [apply IH, shallow_push; [exact HS | exact Hi]|].
    destruct statement as [j|]; [|apply IH, shallow_push; [exact HS | apply Hs]].
    destruct (nth_error done j) as [[?|?|? ?|? ?|? ?|?|? ? ?|? ?|? ?|?|]|]; try (apply IH, shallow_push; [exact HS | apply He]).
    apply IH, shallow_push; [apply shallow_set; [exact HS | apply Hs] | exact Hi].
  - destruct nm as [[nm|]|]; apply IH, shallow_push; assumption.
Qed.
End Rec.

Lemma minify_done fuel : forall parent l, (deep l < fuel)%nat -> exists l' n, minify c fuel parent l = Some (l', n) /\ (deep l' <= deep l)%nat.
Proof.
  induction fuel as [|fuel IH]; intros parent l HD; [lia|]. cbn [minify].
  destruct (steps_done (minify c fuel) fuel IH (deep l) parent l) with (st := init) as (st & -> & H1); [lia | apply deep_le; lia | constructor|].
  destruct (has_layers st).
  - destruct (finish_done (minify c fuel) fuel IH (deep l) parent (rules st)) with (done := @nil rule) (declared := @nil lname) (statement := @None nat) (n := notes st)
      as (l' & n' & -> & H2); [lia | exact H1 | constructor|].
    exists l', n'. split; [reflexivity | apply deep_le, H2].
  - exists (rules st), (notes st). split; [reflexivity | apply deep_le, H1].
Qed.
Lemma minifies_total l : exists l' n, minifies c l l' n.
Proof. destruct (minify_done (S (deep l)) false l) as (l' & n & H & _); [lia|]. exists l', n, (S (deep l)). exact H. Qed.

(** ** More fuel does not change the result *)
Definition extends (f g : bool -> list rule -> option (list rule * log)) : Prop := forall p l r, f p l = Some r -> g p l = Some r.
Lemma step_extends f g parent st r st' : extends f g -> step c f parent st r = Some st' -> step c g parent st r = Some st'.
Proof.
  intros E H. destruct r as [s l|b|q l|w l|n l|n|n p b|n b|n b|n|]; cbn [step] in *; try exact H.
  - unfold step_style in *. destruct parent; [exact H|]. destruct (unused c (sels s) && is_nil l); [exact H|].
    destruct (is_nil l); [exact H|]. destruct (f (unused c (sels s)) l) as [[l' n]|] eqn:EF; [|discriminate]. rewrite (E _ _ _ EF). exact H.
  - unfold step_cond in *.
    assert (Alone : (match f parent l with
      | None => None
      | Some (l', n) => if is_nil l' || never c (tr c q) then Some (add_notes st n) else Some (push (add_notes st n) (Cond (tr c q) l'))
      end) = Some st' -> (match g parent l with
      | None => None
      | Some (l', n) => if is_nil l' || never c (tr c q) then Some (add_notes st n) else Some (push (add_notes st n) (Cond (tr c q) l'))
      end) = Some st').
    { destruct (f parent l) as [[l' n]|] eqn:EF; [|discriminate]. rewrite (E _ _ _ EF). trivial. }
    destruct (last_rule (rules st)) as [[before r]|]; [|exact (Alone H)].
    destruct r as [?|?|q0 l0|? ?|? ?|?|? ? ?|? ?|? ?|?|]; try exact (Alone H). destruct (cond_eqb q0 q); [|exact (Alone H)].
    destruct (f parent (l0 ++ l)) as [[l' n]|] eqn:EF; [|discriminate]. rewrite (E _ _ _ EF). exact H.
  - unfold step_wrap in *. destruct (f (match w with WStarting => parent | _ => false end) l) as [[l' n]|] eqn:EF; [|discriminate].
    rewrite (E _ _ _ EF). exact H.
Qed.
Lemma steps_extends f g parent l : forall st st', extends f g -> steps c f parent st l = Some st' -> steps c g parent st l = Some st'.
Proof.
  induction l as [|r l IH]; intros st st' E H; cbn [steps] in *; [exact H|]. destruct (step c f parent st r) as [st1|] eqn:E1; [|discriminate].
  rewrite (step_extends _ _ _ _ _ _ E E1). exact (IH _ _ E H).
Qed.
Lemma finish_extends f g parent todo : forall done declared statement n r, extends f g ->
  finish f parent todo done declared statement n = Some r -> finish g parent todo done declared statement n = Some r.
Proof.
  induction todo as [|x todo IH]; intros done declared statement n r E H; cbn [finish] in *; [exact H|].
  destruct x as [s l|b|q l|w l|nm l|nm|nm p b|nm b|nm b|nm|]; try exact (IH _ _ _ _ _ E H).
  - destruct (f parent l) as [[l1 n1]|] eqn:EF; [|discriminate]. rewrite (E _ _ _ EF).
    destruct (is_nil l1); [|exact (IH _ _ _ _ _ E H)]. destruct nm as [nm|]; [|exact (IH _ _ _ _ _ E H)].
    destruct (existsb (name_eqb nm) declared); [exact (IH _ _ _ _ _ E H)|]. destruct statement as [j|]; [|exact (IH _ _ _ _ _ E H)].
    destruct (nth_error done j) as [[?|?|? ?|? ?|? ?|?|? ? ?|? ?|? ?|?|]|]; exact (IH _ _ _ _ _ E H).
  - destruct nm as [[nm|]|]; exact (IH _ _ _ _ _ E H).
Qed.
Lemma minify_more fuel : extends (minify c fuel) (minify c (S fuel)).
Proof.
  induction fuel as [|fuel IH]; intros p l r H; [discriminate H|]. cbn [minify] in H.
  change (minify c (S (S fuel)) p l) with (match steps c (minify c (S fuel)) p init l with
    | None => None
    | Some st => if has_layers st then finish (minify c (S fuel)) p (rules st) [] [] None (notes st) else Some (rules st, notes st)
    end).
  destruct (steps c (minify c fuel) p init l) as [st|] eqn:ES; [|discriminate]. rewrite (steps_extends _ _ _ _ _ _ IH ES).
  destruct (has_layers st); [exact (finish_extends _ _ _ _ _ _ _ _ _ IH H) | exact H].
Qed.
Lemma minify_mono fuel k p l r : minify c fuel p l = Some r -> minify c (k + fuel) p l = Some r.
Proof. intros H. induction k as [|k IH]; [exact H | exact (minify_more _ _ _ _ IH)]. Qed.
Lemma minifies_unique l a n b m : minifies c l a n -> minifies c l b m -> a = b /\ n = m.
Proof.
  intros (f & H) (g & H'). apply (minify_mono _ g) in H. apply (minify_mono _ f) in H'. rewrite Nat.add_comm in H'. rewrite H in H'.
  injection H' as <- <-. split; reflexivity.
Qed.
End Fuel.
