(** * The side handlers keep used values *)
From Coq Require Import List Bool Lia.
From Verif Require Import SideModel SideSpec.
Import ListNotations.

Lemma side_eqb_refl x : side_eqb x x = true. Proof. destruct x; reflexivity. Qed.
Lemma side_eqb_eq x y : side_eqb x y = true <-> x = y.
Proof. destruct x, y; split; intros H; try reflexivity; discriminate H. Qed.
Lemma lside_eqb_eq x y : lside_eqb x y = true <-> x = y.
Proof. destruct x, y; split; intros H; try reflexivity; discriminate H. Qed.
Lemma cat_eqb_eq x y : cat_eqb x y = true <-> x = y.
Proof. destruct x, y; split; intros H; try reflexivity; discriminate H. Qed.
Lemma proper_eqb w a b : proper w -> side_eqb (w a) (w b) = lside_eqb a b.
Proof.
  intros H. destruct (lside_eqb a b) eqn:E.
  - apply lside_eqb_eq in E. subst. apply side_eqb_refl.
  - destruct (side_eqb (w a) (w b)) eqn:E'; [|reflexivity]. apply side_eqb_eq in E'. apply H in E'. subst. destruct b; discriminate E.
Qed.

Section Values.
Variable V R : Type.
Variable veq : V -> V -> bool.
Variable compat : V -> bool.
Variable shc : category.
Variable ls bs : bool.
Notation state := (state V R).
Notation event := (event V R).
Notation sdecl := (sdecl V R).
Notation flush := (flush V R veq shc ls bs).
Notation handle := (handle V R veq compat shc ls bs).
Notation env := (side -> option (cell V R)).
Variable w : writing_mode.
Variable br : browser V R.
Hypothesis veq_eq : forall a b, veq a b = true -> a = b.
Hypothesis w_proper : proper w.
Hypothesis br_compat : forall v, compat v = true -> knows br v = true.

Definition give (d : sdecl) (e : env) : env :=
  fun x => if accepts br d then match gives w d x with Some c => Some c | None => e x end else e x.
Fixpoint give_all (l : list sdecl) (e : env) : env := match l with [] => e | d :: r => give_all r (give d e) end.
Lemma used_give l e x : used_from (e x) w br l x = give_all l e x.
Proof.
  revert e. induction l as [|d r IH]; intros e; [reflexivity|]. cbn [used_from give_all]. rewrite <- IH. reflexivity.
Qed.
Lemma give_ext d e e' : (forall x, e x = e' x) -> forall x, give d e x = give d e' x.
Proof. intros H x. unfold give. rewrite (H x). reflexivity. Qed.
Lemma give_all_ext l : forall e e', (forall x, e x = e' x) -> forall x, give_all l e x = give_all l e' x.
Proof. induction l as [|d r IH]; intros e e' H x; [apply H|]. cbn [give_all]. apply IH. apply give_ext. exact H. Qed.
Lemma give_all_app l m e : give_all (l ++ m) e = give_all m (give_all l e).
Proof. revert e. induction l as [|d r IH]; intros e; [reflexivity|]. apply IH. Qed.

(** ** Events in the order they happen *)
Variable rtl : bool.
Definition seen (x : event) : sdecl := match x with Main d => d | Dir a b => if rtl then b else a end.
Definition run (l : list event) (e : env) : env := give_all (map seen l) e.
Lemma run_app l m e : run (l ++ m) e = run m (run l e).
Proof. unfold run. rewrite map_app. apply give_all_app. Qed.
Lemma run_ext l e e' : (forall x, e x = e' x) -> forall x, run l e x = run l e' x.
Proof. apply give_all_ext. Qed.
Hypothesis w_rtl : ls = false -> w = horizontal rtl.

(** What the fields of a state will give *)
Definition pslot (o : option V) : option (cell V R) :=
  match o with Some v => if knows br v then Some (CVal v) else None | None => None end.
Definition lslot (o : option (lval V R)) : option (cell V R) :=
  match o with
  | Some (LVal v) => if knows br v then Some (CVal v) else None
  | Some (LRaw u) => if knows_raw br u then Some (CTokens u) else None
  | None => None
  end.
Definition over (o : option (cell V R)) (c : option (cell V R)) : option (cell V R) := match o with Some x => Some x | None => c end.
Definition at_side (x : side) (l : lside) (s : state) : option (cell V R) := if side_eqb (w l) x then lslot (log s l) else None.
Definition mean (s : state) (e : env) : env := fun x =>
  over (at_side x InlineEnd s) (over (at_side x InlineStart s) (over (at_side x BlockEnd s) (over (at_side x BlockStart s)
    (over (pslot (phys s x)) (e x))))).

Definition uni_ev (x : event) : Prop := uniform br (seen x).

Lemma phys_mean s e : Forall uni_ev (flush_phys V R shc ls s) ->
  forall x, run (flush_phys V R shc ls s) e x = over (pslot (phys s x)) (e x).
Proof.
  unfold flush_phys, run. destruct (phys s Top) as [t|] eqn:E1, (phys s Right) as [r|] eqn:E2, (phys s Bottom) as [b|] eqn:E3, (phys s Left) as [l|] eqn:E4.
  1:{ destruct (negb _ || ls); intros U x.
      - pose proof (Forall_inv U) as H. unfold uni_ev in H. cbn [seen uniform] in H. destruct H as [H1 [H2 H3]].
        cbn [map seen give_all]. unfold give. cbn [accepts gives]. rewrite H1, H2, H3. unfold over, pslot.
        destruct x; rewrite ?E1, ?E2, ?E3, ?E4, ?H1, ?H2, ?H3; destruct (knows br t); reflexivity.
      - cbn [map seen give_all]. unfold give. cbn [accepts gives]. unfold over, pslot.
        destruct x; rewrite ?E1, ?E2, ?E3, ?E4; cbn [side_eqb]; destruct (knows br t), (knows br r), (knows br b), (knows br l); reflexivity. }
  all: intros _ x; cbn [opt app map seen give_all]; unfold give; cbn [accepts gives]; unfold over, pslot;
    destruct x; rewrite ?E1, ?E2, ?E3, ?E4; cbn [side_eqb];
    repeat match goal with |- context [knows br ?v] => destruct (knows br v) end; reflexivity.
Qed.
Lemma opt_one (o : option (lval V R)) (f : lval V R -> event) l e x :
  (forall y, o = Some y -> seen (f y) = ldecl V R l y \/ (exists s, seen (f y) = pdecl V R s y /\ s = w l)) ->
  run (opt f o) e x = over (if side_eqb (w l) x then lslot o else None) (e x).
Proof.
  intros H. destruct o as [y|]; [|cbn; destruct (side_eqb (w l) x); reflexivity]. unfold run. cbn [opt map give_all]. unfold give.
  destruct (H y eq_refl) as [-> |[s [-> ->]]]; destruct y as [v|u]; cbn [ldecl pdecl accepts gives lslot over];
    destruct (side_eqb (w l) x); cbn [over]; try (destruct (knows br v)); try (destruct (knows_raw br u)); reflexivity.
Qed.
Lemma pair_mean s a b sh e : a <> b ->
  (forall v v' x, gives w (sh v v') x = if side_eqb (w a) x then Some (CVal v) else if side_eqb (w b) x then Some (CVal v') else None) ->
  (forall v v', accepts br (sh v v') = knows br v && knows br v') ->
  (forall v v', uniform br (sh v v') -> knows br v = knows br v') ->
  Forall uni_ev (logical_side V R bs s a b sh) ->
  forall x, run (logical_side V R bs s a b sh) e x = over (at_side x b s) (over (at_side x a s) (e x)).
Proof.
  intros N G A U F x. unfold logical_side in *. unfold at_side.
  assert (D : run (opt (fun y => Main (ldecl V R a y)) (log s a) ++ opt (fun y => Main (ldecl V R b y)) (log s b)) e x
              = over (if side_eqb (w b) x then lslot (log s b) else None) (over (if side_eqb (w a) x then lslot (log s a) else None) (e x))).
  { rewrite run_app. rewrite (opt_one _ _ b) by (intros y _; left; reflexivity).
    rewrite (opt_one _ _ a) by (intros y _; left; reflexivity). reflexivity. }
  destruct (log s a) as [[v|u]|] eqn:Ea; try exact D. destruct (log s b) as [[v'|u']|] eqn:Eb; try exact D. destruct bs; [|exact D].
  clear D. pose proof (Forall_inv F) as H. apply U in H. unfold run. cbn [map seen give_all]. unfold give. rewrite A, G, H. cbn [lslot].
  assert (X : side_eqb (w a) x = true -> side_eqb (w b) x = false).
  { intros Hx. apply side_eqb_eq in Hx. subst x. rewrite proper_eqb by exact w_proper. destruct (lside_eqb b a) eqn:E; [|reflexivity].
    apply lside_eqb_eq in E. congruence. }
  rewrite <- H. destruct (knows br v); cbn [andb]; destruct (side_eqb (w a) x); [rewrite X by reflexivity| |rewrite X by reflexivity|];
    try (destruct (side_eqb (w b) x)); reflexivity.
Qed.
Lemma block_mean s e : Forall uni_ev (flush_block V R ls bs s) ->
  forall x, run (flush_block V R ls bs s) e x = over (at_side x BlockEnd s) (over (at_side x BlockStart s) (e x)).
Proof.
  intros F x. unfold flush_block in *. destruct ls.
  - apply pair_mean; try assumption; try reflexivity; [discriminate | intros v v' H; exact H].
  - rewrite run_app. unfold at_side. rewrite (w_rtl eq_refl) in *.
    rewrite (opt_one _ _ BlockEnd) by (intros y _; right; exists Bottom; split; [reflexivity | rewrite (w_rtl eq_refl); reflexivity]).
    rewrite (opt_one _ _ BlockStart) by (intros y _; right; exists Top; split; [reflexivity | rewrite (w_rtl eq_refl); reflexivity]).
    rewrite (w_rtl eq_refl). reflexivity.
Qed.
Lemma inline_mean s e : Forall uni_ev (flush_inline V R veq ls bs s) ->
  forall x, run (flush_inline V R veq ls bs s) e x = over (at_side x InlineEnd s) (over (at_side x InlineStart s) (e x)).
Proof.
  intros F x. unfold flush_inline in *. destruct ls.
  - apply pair_mean; try assumption; try reflexivity; [discriminate | intros v v' H; exact H].
  - unfold at_side. destruct (same_inline V R veq s) eqn:E.
    + unfold same_inline in E. destruct (log s InlineStart) as [[a|]|]; try discriminate E. destruct (log s InlineEnd) as [[b|]|]; try discriminate E.
      apply veq_eq in E. subst b. unfold run. cbn [opt app map seen give_all pdecl]. unfold give. cbn [accepts gives lslot].
      rewrite (w_rtl eq_refl). cbn [horizontal]. destruct rtl, x; cbn [side_eqb over]; destruct (knows br a); reflexivity.
    + rewrite run_app.
      rewrite (opt_one _ _ InlineEnd) by (intros y _; right; exists (if rtl then Left else Right); split; [cbn [seen]; destruct rtl; reflexivity | rewrite (w_rtl eq_refl); reflexivity]).
      rewrite (opt_one _ _ InlineStart) by (intros y _; right; exists (if rtl then Right else Left); split; [cbn [seen]; destruct rtl; reflexivity | rewrite (w_rtl eq_refl); reflexivity]).
      reflexivity.
Qed.

(** ** Flushing *)
Lemma onto x : exists k, w k = x.
Proof.
  pose proof (w_proper BlockStart BlockEnd) as H1. pose proof (w_proper BlockStart InlineStart) as H2.
  pose proof (w_proper BlockStart InlineEnd) as H3. pose proof (w_proper BlockEnd InlineStart) as H4.
  pose proof (w_proper BlockEnd InlineEnd) as H5. pose proof (w_proper InlineStart InlineEnd) as H6.
  destruct (side_eqb (w BlockStart) x) eqn:E1; [apply side_eqb_eq in E1; eauto|].
  destruct (side_eqb (w BlockEnd) x) eqn:E2; [apply side_eqb_eq in E2; eauto|].
  destruct (side_eqb (w InlineStart) x) eqn:E3; [apply side_eqb_eq in E3; eauto|].
  destruct (side_eqb (w InlineEnd) x) eqn:E4; [apply side_eqb_eq in E4; eauto|].
  exfalso. destruct (w BlockStart), (w BlockEnd), (w InlineStart), (w InlineEnd), x; try discriminate E1; try discriminate E2; try discriminate E3; try discriminate E4;
    (discriminate (H1 eq_refl) || discriminate (H2 eq_refl) || discriminate (H3 eq_refl) || discriminate (H4 eq_refl) || discriminate (H5 eq_refl) || discriminate (H6 eq_refl)).
Qed.
Lemma mean_at s e k : mean s e (w k) = over (lslot (log s k)) (over (pslot (phys s (w k))) (e (w k))).
Proof.
  unfold mean, at_side. rewrite !proper_eqb by exact w_proper. destruct k; cbn [lside_eqb over]; reflexivity.
Qed.
Definition empty (s : state) : Prop := (forall x, phys s x = None) /\ forall k, log s k = None.
Definition inv (s : state) : Prop :=
  (has_any s = false -> empty s) /\ (cat s = Physical -> forall k, log s k = None).
Lemma mean_empty s e x : empty s -> mean s e x = e x.
Proof. intros [H1 H2]. destruct (onto x) as [k <-]. rewrite mean_at, H1, H2. reflexivity. Qed.
Lemma mean_ext s e e' : (forall x, e x = e' x) -> forall x, mean s e x = mean s e' x.
Proof. intros H x. unfold mean. rewrite H. reflexivity. Qed.
Lemma flush_mean s e : inv s -> Forall uni_ev (snd (flush s)) ->
  (forall x, run (snd (flush s)) e x = mean s e x) /\ empty (fst (flush s)) /\ cat (fst (flush s)) = cat s.
Proof.
  intros [I1 I2]. unfold SideModel.flush. destruct (has_any s) eqn:E.
  - cbn [fst snd]. intros F. apply Forall_app in F. destruct F as [F1 F2]. apply Forall_app in F2. destruct F2 as [F2 F3].
    split; [|split; [split; reflexivity | reflexivity]].
    intros x. rewrite !run_app. rewrite (inline_mean s _ F3), (block_mean s _ F2), (phys_mean s _ F1). reflexivity.
  - cbn [fst snd]. intros _. split; [|split; [exact (I1 eq_refl) | reflexivity]].
    intros x. symmetry. apply mean_empty. exact (I1 eq_refl).
Qed.

(** What a step does *)
Definition keeps (s : state) (p : state * list event) (l : list sdecl) : Prop :=
  Forall uni_ev (snd p) -> forall e x, mean (fst p) (run (snd p) e) x = give_all l (mean s e) x.
Lemma empty_inv s : empty s -> inv s.
Proof. intros [H1 H2]. split; [intros _; split; assumption | intros _; exact H2]. Qed.
Lemma keeps_then s p f l l' : keeps s p l -> keeps (fst p) (f (fst p)) l' -> keeps s (then_ V R p f) (l ++ l').
Proof.
  destruct p as [s1 e1]. unfold then_. cbn [fst]. intros H1 H2. destruct (f s1) as [s2 e2] eqn:E. unfold keeps in *. cbn [fst snd] in *.
  intros F e x. apply Forall_app in F. destruct F as [F1 F2]. rewrite run_app, give_all_app, (H2 F2).
  apply give_all_ext. intros y. apply H1. exact F1.
Qed.
Lemma keeps_id s : keeps s (s, []) [].
Proof. intros _ e x. reflexivity. Qed.
Lemma flush_keeps s : inv s -> keeps s (flush s) [].
Proof.
  intros I F e x. destruct (flush_mean s e I F) as [H1 [H2 _]]. cbn [give_all]. rewrite mean_empty by exact H2. apply H1.
Qed.
Lemma flush_empty s : inv s -> empty (fst (flush s)).
Proof.
  intros [I1 _]. unfold SideModel.flush. destruct (has_any s) eqn:E; [split; reflexivity | exact (I1 eq_refl)].
Qed.
Lemma flush_cat s : cat (fst (flush s)) = cat s.
Proof. unfold SideModel.flush. destruct (has_any s); reflexivity. Qed.
(** After a possible flush *)
Definition same (s s' : state) : Prop := s' = s \/ (empty s' /\ cat s' = cat s).
Lemma same_inv s s' : inv s -> same s s' -> inv s'.
Proof. intros I [-> |[H _]]; [exact I | apply empty_inv; exact H]. Qed.
Lemma same_cat s s' : same s s' -> cat s' = cat s.
Proof. intros [-> |[_ H]]; [reflexivity | exact H]. Qed.
Lemma same_trans a b c : same a b -> same b c -> same a c.
Proof. intros [-> |[H1 H2]] [-> |[H3 H4]]; [left; reflexivity | right; auto | right; auto | right; split; [exact H3 | congruence]]. Qed.
Lemma flush_for_spec some v c s : inv s ->
  let p := flush_for V R veq compat shc ls bs some v c s in
  keeps s p [] /\ same s (fst p) /\ (empty (fst p) \/ (c = cat s /\ (some (fst p) = true -> compat v = true))).
Proof.
  intros I. unfold flush_for. destruct (negb (cat_eqb c (cat s)) || (some s && negb (compat v))) eqn:E; cbn zeta.
  - split; [apply flush_keeps; exact I|]. split; [right; split; [apply flush_empty; exact I | apply flush_cat]|]. left. apply flush_empty. exact I.
  - apply orb_false_elim in E. destruct E as [E1 E2]. apply negb_false_iff, cat_eqb_eq in E1. split; [apply keeps_id|]. split; [left; reflexivity|].
    right. split; [exact E1|]. cbn [fst]. intros H. rewrite H in E2. cbn [andb] in E2. apply negb_false_iff in E2. exact E2.
Qed.

Lemma step_property k v s : inv s -> inv (fst (property V R veq compat shc ls bs k v s)) /\ keeps s (property V R veq compat shc ls bs k v s) [DSide k v].
Proof.
  intros I. unfold property. destruct (flush_for_spec (fun s => is_some (phys s k)) v Physical s I) as [K [S D]]. cbn zeta in *.
  destruct (flush_for V R veq compat shc ls bs _ v Physical s) as [s1 e1]. cbn [fst] in *.
  pose proof (same_inv _ _ I S) as I1.
  assert (L : forall l, log s1 l = None).
  { destruct D as [[_ D]|[D _]]; [exact D|]. apply I1. rewrite (same_cat _ _ S). congruence. }
  split.
  - cbn [then_ fst]. split; [discriminate | intros _; exact L].
  - change [DSide k v] with (@nil sdecl ++ [DSide k v]). apply keeps_then; [exact K|]. cbn [fst]. intros _ e x. unfold run. cbn [fst snd map give_all].
    destruct (onto x) as [l <-]. rewrite mean_at. cbn [log phys]. unfold give. cbn [accepts gives]. rewrite mean_at, !L. cbn [lslot over].
    unfold set_phys. unfold run. cbn [map give_all]. destruct (side_eqb k (w l)) eqn:E; cbn [over]; [|destruct (knows br v); reflexivity].
    apply side_eqb_eq in E. subst k. cbn [pslot]. destruct (knows br v) eqn:Kv; [reflexivity|]. cbn [over].
    destruct (phys s1 (w l)) as [v'|] eqn:P; [|reflexivity]. exfalso. destruct D as [[D _]|[_ D]]; [rewrite D in P; discriminate P|].
    rewrite (br_compat v (D eq_refl)) in Kv. discriminate Kv.
Qed.
Lemma same_none s s' k : same s s' -> log s k = None -> log s' k = None.
Proof. intros [-> |[[_ H] _]]; auto. Qed.
Lemma step_logical k y s : inv s -> (forall v, y = LVal v -> knows br v = false -> log s k = None) ->
  let p := logical_property V R veq shc ls bs k y s in
  inv (fst p) /\ keeps s p [ldecl V R k y] /\ (forall l, l <> k -> log s l = None -> log (fst p) l = None).
Proof.
  intros I Pre. unfold logical_property.
  set (p := if negb (cat_eqb (cat s) Logical) || (is_some (log s k) && is_raw V R y) then flush s else (s, [])).
  assert (Hp : keeps s p [] /\ same s (fst p) /\ (is_raw V R y = true -> log (fst p) k = None)).
  { subst p. destruct (negb _ || _) eqn:E.
    - split; [apply flush_keeps; exact I|]. split; [right; split; [apply flush_empty; exact I | apply flush_cat] | intros _; apply flush_empty; exact I].
    - split; [apply keeps_id|]. split; [left; reflexivity|]. intros H. apply orb_false_elim in E. destruct E as [_ E]. rewrite H, andb_true_r in E. cbn [fst]. destruct (log s k); [discriminate E | reflexivity]. }
  clearbody p. destruct p as [s1 e1]. cbn [fst] in *. destruct Hp as [K [S Hr]]. cbn zeta. split; [|split].
  - cbn [then_ fst]. split; discriminate.
  - change [ldecl V R k y] with (@nil sdecl ++ [ldecl V R k y]). apply keeps_then; [exact K|]. cbn [fst]. intros _ e x. unfold run. cbn [fst snd map give_all].
    destruct (onto x) as [l <-]. rewrite mean_at. cbn [log phys]. unfold give. rewrite mean_at. unfold set_log.
    destruct (lside_eqb k l) eqn:E.
    + apply lside_eqb_eq in E. subst l. destruct y as [v|u]; cbn [ldecl accepts gives lslot]; rewrite side_eqb_refl.
      * destruct (knows br v) eqn:Kv; [reflexivity|]. cbn [over]. rewrite (same_none _ _ _ S (Pre v eq_refl Kv)). reflexivity.
      * rewrite (Hr eq_refl). destruct (knows_raw br u); reflexivity.
    + destruct y as [v|u]; cbn [ldecl accepts gives]; rewrite proper_eqb, E by exact w_proper; [destruct (knows br v) | destruct (knows_raw br u)]; reflexivity.
  - intros l N H. cbn [then_ fst log]. unfold set_log. destruct (lside_eqb k l) eqn:E; [apply lside_eqb_eq in E; congruence|].
    exact (same_none _ _ _ S H).
Qed.
Lemma flush_log_spec k v s : inv s ->
  let p := flush_log V R veq compat shc ls bs k v s in
  keeps s p [] /\ same s (fst p) /\ (knows br v = false -> log (fst p) k = None).
Proof.
  intros I. destruct (flush_for_spec (fun s => is_some (log s k)) v Logical s I) as [K [S D]]. cbn zeta. unfold flush_log.
  split; [exact K|]. split; [exact S|]. intros Kv. destruct D as [[_ D]|[_ D]]; [apply D|].
  destruct (log (fst _) k); [|reflexivity]. rewrite (br_compat v (D eq_refl)) in Kv. discriminate Kv.
Qed.
Lemma then_fst p f : fst (then_ V R p f) = fst (f (fst p)).
Proof. destruct p as [s e]. cbn. destruct (f s). reflexivity. Qed.
Lemma step_pair ka kb a b sh s : ka <> kb -> inv s -> knows br a = knows br b ->
  (forall v v' x, gives w (sh v v') x = if side_eqb (w ka) x then Some (CVal v) else if side_eqb (w kb) x then Some (CVal v') else None) ->
  (forall v v', accepts br (sh v v') = knows br v && knows br v') ->
  let p := then_ V R (then_ V R (then_ V R (flush_log V R veq compat shc ls bs ka a s) (flush_log V R veq compat shc ls bs kb b))
              (logical_property V R veq shc ls bs ka (LVal a)))
            (logical_property V R veq shc ls bs kb (LVal b)) in
  inv (fst p) /\ keeps s p [sh a b].
Proof.
  intros N I U G A. cbn zeta. destruct (flush_log_spec ka a s I) as [K1 [S1 P1]]. cbn zeta in *.
  set (p1 := flush_log V R veq compat shc ls bs ka a s) in *. clearbody p1.
  pose proof (same_inv _ _ I S1) as I1. destruct (flush_log_spec kb b (fst p1) I1) as [K2 [S2 P2]]. cbn zeta in *.
  pose proof (same_inv _ _ I1 S2) as I2.
  set (p2 := then_ V R p1 (flush_log V R veq compat shc ls bs kb b)).
  assert (E2 : fst p2 = fst (flush_log V R veq compat shc ls bs kb b (fst p1))) by apply then_fst.
  assert (K12 : keeps s p2 []) by (apply (keeps_then s p1 _ [] []); assumption).
  rewrite <- E2 in *. clearbody p2.
  destruct (step_logical ka (LVal a) (fst p2) I2) as [I3 [K3 L3]].
  { intros v E Kv. injection E as <-. apply (same_none _ _ _ S2), P1, Kv. }
  cbn zeta in *. set (p3 := then_ V R p2 (logical_property V R veq shc ls bs ka (LVal a))).
  assert (E3 : fst p3 = fst (logical_property V R veq shc ls bs ka (LVal a) (fst p2))) by apply then_fst.
  assert (K13 : keeps s p3 [DLog ka a]) by (apply (keeps_then s p2 _ [] [DLog ka a]); assumption).
  rewrite <- E3 in *. clearbody p3.
  destruct (step_logical kb (LVal b) (fst p3) I3) as [I4 [K4 _]].
  { intros v E Kv. injection E as <-. apply L3; [congruence|]. apply P2, Kv. }
  cbn zeta in *. split; [rewrite then_fst; exact I4|].
  intros F e x. assert (H : keeps s (then_ V R p3 (logical_property V R veq shc ls bs kb (LVal b))) [DLog ka a; DLog kb b])
    by (apply (keeps_then s p3 _ [DLog ka a] [DLog kb b]); assumption).
  rewrite (H F e x). cbn [give_all]. unfold give. cbn [accepts gives]. rewrite A, G, <- U.
  destruct (knows br a); cbn [andb]; [|reflexivity]. destruct (side_eqb (w ka) x) eqn:Ea, (side_eqb (w kb) x) eqn:Eb; try reflexivity.
  apply side_eqb_eq in Ea, Eb. exfalso. apply N, w_proper. congruence.
Qed.
Lemma flush_side_spec k v s : inv s ->
  let p := flush_side V R veq compat shc ls bs k v s in
  keeps s p [] /\ same s (fst p) /\ (knows br v = false -> phys (fst p) k = None)
  /\ (shc = Physical -> forall l, log (fst p) l = None).
Proof.
  intros I. destruct (flush_for_spec (fun s => is_some (phys s k)) v shc s I) as [K [S D]]. cbn zeta in *. unfold flush_side.
  split; [exact K|]. split; [exact S|]. split.
  - intros Kv. destruct D as [[D _]|[_ D]]; [apply D|]. destruct (phys (fst _) k); [|reflexivity]. rewrite (br_compat v (D eq_refl)) in Kv. discriminate Kv.
  - intros H. destruct D as [[_ D]|[D _]]; [exact D|]. apply (same_inv _ _ I S). rewrite (same_cat _ _ S). congruence.
Qed.
Lemma same_phys s s' k : same s s' -> phys s k = None -> phys s' k = None.
Proof. intros [-> |[[H _] _]]; auto. Qed.
Lemma step_all t r b l s : inv s -> uniform br (DAll t r b l) -> (shc = Physical \/ accepts br (@DAll V R t r b l) = true) ->
  inv (fst (handle s (DAll t r b l))) /\ keeps s (handle s (DAll t r b l)) [DAll t r b l].
Proof.
  intros I [U1 [U2 U3]] C. cbn [SideModel.handle].
  destruct (flush_side_spec Top t s I) as [K1 [S1 [P1 L1]]]. cbn zeta in *.
  set (p1 := flush_side V R veq compat shc ls bs Top t s) in *. clearbody p1. pose proof (same_inv _ _ I S1) as I1.
  destruct (flush_side_spec Right r (fst p1) I1) as [K2 [S2 [P2 _]]]. cbn zeta in *. pose proof (same_inv _ _ I1 S2) as I2.
  set (p2 := then_ V R p1 (flush_side V R veq compat shc ls bs Right r)) in *.
  assert (E2 : fst p2 = fst (flush_side V R veq compat shc ls bs Right r (fst p1))) by apply then_fst.
  assert (T2 : keeps s p2 []) by (apply (keeps_then s p1 _ [] []); assumption). rewrite <- E2 in *. clearbody p2.
  destruct (flush_side_spec Bottom b (fst p2) I2) as [K3 [S3 [P3 _]]]. cbn zeta in *. pose proof (same_inv _ _ I2 S3) as I3.
  set (p3 := then_ V R p2 (flush_side V R veq compat shc ls bs Bottom b)) in *.
  assert (E3 : fst p3 = fst (flush_side V R veq compat shc ls bs Bottom b (fst p2))) by apply then_fst.
  assert (T3 : keeps s p3 []) by (apply (keeps_then s p2 _ [] []); assumption). rewrite <- E3 in *. clearbody p3.
  destruct (flush_side_spec Left l (fst p3) I3) as [K4 [S4 [P4 _]]]. cbn zeta in *. pose proof (same_inv _ _ I3 S4) as I4.
  set (p4 := then_ V R p3 (flush_side V R veq compat shc ls bs Left l)) in *.
  assert (E4 : fst p4 = fst (flush_side V R veq compat shc ls bs Left l (fst p3))) by apply then_fst.
  assert (T4 : keeps s p4 []) by (apply (keeps_then s p3 _ [] []); assumption). rewrite <- E4 in *. clearbody p4.
  split; [rewrite then_fst; split; [discriminate | reflexivity]|].
  apply (keeps_then s p4 _ [] [DAll t r b l]); [exact T4|]. intros _ e x. unfold run. cbn [snd fst map give_all]. unfold give.
  destruct (onto x) as [k <-]. rewrite !mean_at. cbn [log phys none_log gives lslot over]. cbn [accepts] in *. rewrite U1, U2, U3 in *.
  destruct (knows br t) eqn:Kt; cbn [andb] in *.
  - destruct (w k); cbn [pslot]; rewrite ?Kt, ?U1, ?U2, ?U3; reflexivity.
  - destruct C as [C|C]; [|discriminate C].
    assert (Lk : forall q, log (fst p4) q = None).
    { intros q. apply (same_none _ _ _ S4), (same_none _ _ _ S3), (same_none _ _ _ S2), L1, C. }
    assert (Pk : phys (fst p4) (w k) = None).
    { destruct (w k).
      - apply (same_phys _ _ _ S4), (same_phys _ _ _ S3), (same_phys _ _ _ S2), P1. reflexivity.
      - apply (same_phys _ _ _ S4), P3. reflexivity.
      - apply P4. reflexivity.
      - apply (same_phys _ _ _ S4), (same_phys _ _ _ S3), P2. reflexivity. }
    rewrite Lk, Pk. cbn [lslot pslot over]. destruct (w k); cbn [pslot]; rewrite ?Kt, ?U1, ?U2, ?U3; reflexivity.
Qed.
(** A declaration that the handler does not lose in this browser *)
Definition fair (d : sdecl) : Prop :=
  uniform br d /\ match d with DAll _ _ _ _ => shc = Physical \/ accepts br d = true | _ => True end.
Lemma step s d : inv s -> fair d -> inv (fst (handle s d)) /\ keeps s (handle s d) [d].
Proof.
  intros I [U F]. destruct d as [k v|k v|a b|a b|t r b l|i u].
  - apply step_property. exact I.
  - cbn [SideModel.handle]. destruct (flush_log_spec k v s I) as [K1 [S1 P1]]. cbn zeta in *.
    destruct (step_logical k (LVal v) (fst (flush_log V R veq compat shc ls bs k v s)) (same_inv _ _ I S1)) as [I2 [K2 _]].
    { intros v' E. injection E as <-. exact P1. }
    split; [rewrite then_fst; exact I2|]. apply (keeps_then s _ _ [] [DLog k v]); assumption.
  - apply step_pair; try assumption; try reflexivity. discriminate.
  - apply step_pair; try assumption; try reflexivity. discriminate.
  - apply step_all; assumption.
  - assert (Push : inv (fst (then_ V R (flush s) (fun s => (s, [Main (DRaw i u)])))) /\ keeps s (then_ V R (flush s) (fun s => (s, [Main (DRaw i u)]))) [DRaw i u]).
    { split; [rewrite then_fst; apply empty_inv, flush_empty, I|]. apply (keeps_then s _ _ [] [DRaw i u]); [apply flush_keeps; exact I|].
      intros _ e x. cbn [fst snd]. unfold run. cbn [map seen give_all]. rewrite !mean_empty by (apply flush_empty; exact I).
      apply give_ext. intros y. symmetry. apply mean_empty. apply flush_empty. exact I. }
    destruct i; try exact Push. cbn [SideModel.handle]. destruct (step_logical l (LRaw u) s I) as [I1 [K1 _]]; [discriminate|]. split; assumption.
Qed.
Lemma steps l : forall s, inv s -> Forall fair l ->
  inv (fst (handle_all V R veq compat shc ls bs s l)) /\ keeps s (handle_all V R veq compat shc ls bs s l) l.
Proof.
  induction l as [|d r IH]; intros s I F; [split; [exact I | apply keeps_id]|]. cbn [handle_all].
  destruct (step s d I (Forall_inv F)) as [I1 K1]. destruct (IH (fst (handle s d)) I1 (Forall_inv_tail F)) as [I2 K2].
  split; [rewrite then_fst; exact I2|]. apply (keeps_then s _ _ [d] r); assumption.
Qed.
Theorem trace_used c l : Forall fair l -> Forall uni_ev (snd (minify V R veq compat shc ls bs c l)) ->
  forall x, run (snd (minify V R veq compat shc ls bs c l)) (fun _ => None) x = used w br l x.
Proof.
  intros F U x. unfold minify in *. set (s0 := State (none_phys V) (none_log V R) false c) in *.
  assert (E0 : empty s0) by (split; reflexivity). destruct (steps l s0 (empty_inv _ E0) F) as [I1 K1].
  assert (K : keeps s0 (then_ V R (handle_all V R veq compat shc ls bs s0 l) flush) (l ++ [])).
  { apply keeps_then; [exact K1 | apply flush_keeps; exact I1]. }
  rewrite app_nil_r in K. specialize (K U (fun _ => None) x). rewrite mean_empty in K by (rewrite then_fst; apply flush_empty; exact I1).
  rewrite K. unfold used. rewrite (used_give l (fun _ => None) x). apply give_all_ext. intros y. apply mean_empty. exact E0.
Qed.
End Values.
