(** * The selector that is read back means the same *)
From Coq Require Import List Bool ZArith Ascii String Lia Arith.
Import ListNotations.
From Verif Require Import SelTextModel SelTextSpec SelTextProofs.
Local Open Scope list_scope.

(** ** Induction over selectors *)
Section Ind.
Variable P : comp -> Prop.
Hypothesis leaf : forall c, match c with Not _ | Is _ | Where _ | Any _ _ | Has _ | NthOf _ _ _ _ | Host (Some _) | Slotted _ | CueFn _ _ => False | _ => True end -> P c.
Hypothesis HNot : forall l, Forall (Forall P) l -> P (Not l).
Hypothesis HIs : forall l, Forall (Forall P) l -> P (Is l).
Hypothesis HWhere : forall l, Forall (Forall P) l -> P (Where l).
Hypothesis HAny : forall p l, Forall (Forall P) l -> P (Any p l).
Hypothesis HHas : forall l, Forall (Forall P) l -> P (Has l).
Hypothesis HNth : forall t a b l, Forall (Forall P) l -> P (NthOf t a b l).
Hypothesis HHost : forall s, Forall P s -> P (Host (Some s)).
Hypothesis HSlotted : forall s, Forall P s -> P (Slotted s).
Hypothesis HCue : forall g s, Forall P s -> P (CueFn g s).
Fixpoint comp_ind' (c : comp) : P c :=
  let one := fix one (s : sel) : Forall P s := match s with [] => Forall_nil _ | x :: r => Forall_cons _ (comp_ind' x) (one r) end in
  let all := fix all (l : list sel) : Forall (Forall P) l := match l with [] => Forall_nil _ | s :: r => Forall_cons _ (one s) (all r) end in
  match c with
  | Not l => HNot l (all l) | Is l => HIs l (all l) | Where l => HWhere l (all l) | Any p l => HAny p l (all l) | Has l => HHas l (all l)
  | NthOf t a b l => HNth t a b l (all l) | Host (Some s) => HHost s (one s) | Slotted s => HSlotted s (one s) | CueFn g s => HCue g s (one s)
  | c => leaf c I
  end.
End Ind.

Notation wn s := (map (fun x => (x, norm_comp x)) s).

(** ** Specificity *)
Lemma add_zero x : add x zero = x.
Proof. destruct x. unfold add, zero. cbn. f_equal; lia. Qed.
Lemma add_assoc x y z : add x (add y z) = add (add x y) z.
Proof. unfold add. cbn. f_equal; lia. Qed.
Lemma larger_zero x : larger x zero = x.
Proof.
  unfold larger, leb. destruct x as [a b c]. cbn [ids classes types zero]. destruct (_ || _)%bool eqn:E; [|reflexivity].
  apply orb_true_iff in E. destruct E as [E|E]; [apply Nat.ltb_lt in E; cbn in E; lia|]. apply andb_true_iff in E. destruct E as [E1 E]. apply Nat.eqb_eq in E1. cbn in E1. subst.
  apply orb_true_iff in E. destruct E as [E|E]; [apply Nat.ltb_lt in E; cbn in E; lia|]. apply andb_true_iff in E. destruct E as [E2 E]. apply Nat.eqb_eq in E2. cbn in E2. subst.
  apply Nat.leb_le in E. cbn in E. assert (c = 0) by lia. subst. reflexivity.
Qed.
Lemma specificity_app a b : specificity (a ++ b) = add (specificity a) (specificity b).
Proof. induction a as [|c a IH]; [change (specificity b = add zero (specificity b)); destruct (specificity b); reflexivity|]. cbn [app]. unfold specificity in *. cbn [fold_right]. rewrite IH, add_assoc. reflexivity. Qed.
Definition most (l : list sel) : spec := fold_right (fun s r => larger (specificity s) r) zero l.
Definition most_rel (l : list sel) : spec := fold_right (fun s r => larger (match s with Scope :: Comb _ :: x => specificity x | _ => specificity s end) r) zero l.
Definition keeps (c : comp) : Prop := specificity (norm_comp c) = comp_spec c.
Lemma walk_keeps s : Forall keeps s -> forall x, specificity (walk x (wn s)) = specificity s.
Proof.
  induction 1 as [|c s K H IH]; intros x; [reflexivity|]. cbn [map walk]. rewrite specificity_app, IH. unfold specificity at 3. cbn [fold_right]. fold (specificity s). f_equal.
  destruct (is_univ c && negb (keep x (wn s))) eqn:U; [|exact K]. apply andb_true_iff in U. destruct U as [U _]. destruct c; try discriminate U. reflexivity.
Qed.
Lemma most_keeps l : Forall (Forall keeps) l -> most (map (norm true) l) = most l.
Proof. induction 1 as [|s l K H IH]; [reflexivity|]. cbn [map]. unfold most in *. cbn [fold_right]. rewrite IH. unfold norm. rewrite walk_keeps by exact K. reflexivity. Qed.

(** A selector that does not start with a hidden [:scope] does not start with [:scope] when it is read back *)
Definition no_scope_first (s : sel) : Prop := match s with Scope :: _ => False | _ => True end.
Lemma app_no_scope a b : no_scope_first a -> (a = [] -> no_scope_first b) -> no_scope_first (a ++ b).
Proof. destruct a; cbn; auto. Qed.
Lemma unwraps_false c : unwraps_scope c = false -> no_scope_first (norm_comp c).
Proof.
  induction c using comp_ind'; intros U; try exact I.
  - destruct c; try destruct H; try exact I; try discriminate U. destruct s; [destruct H|exact I].
  - change (norm_comp (Is l)) with (if should_unwrap l then match l with s :: _ => norm true s | [] => [] end else [Is (map (norm true) l)]).
    destruct (should_unwrap l) eqn:SU; [|exact I]. destruct l as [|s [|]]; try discriminate SU. cbn [unwraps_scope] in U. inversion H as [|? ? Hs _]; subst.
    assert (NC : existsb is_comb s = false). { cbn [should_unwrap] in SU. apply andb_true_iff in SU. destruct SU as [_ SU]. unfold is_simple in SU. apply negb_true_iff in SU. exact SU. }
    clear SU H. unfold norm. generalize (start_of true). induction Hs as [|c s Hc Hs IH]; intros x; [exact I|]. cbn [existsb] in U, NC. apply orb_false_iff in U, NC. destruct U as [U1 U2], NC as [_ NC].
    cbn [map walk]. apply app_no_scope; [destruct (_ && _)%bool; [exact I|auto]|auto].
Qed.
Lemma hidden_false s : hidden_scope s = false -> forall x, no_scope_first (walk x (wn s)).
Proof.
  induction s as [|c s IH]; intros H x; [exact I|]. cbn [map walk]. destruct (is_comb c) eqn:C.
  - destruct c; try discriminate C. exact I.
  - assert (H' : unwraps_scope c = false /\ hidden_scope s = false) by (destruct c; try discriminate C; apply orb_false_iff; exact H). destruct H' as [H1 H2].
    apply app_no_scope; [destruct (_ && _)%bool; [exact I|apply unwraps_false; exact H1]|auto].
Qed.
Lemma rel_cases s : no_hidden_scope s -> (exists r, s = Scope :: Comb Descendant :: r /\ norm_rel s = norm true r /\ no_scope_first (norm true r)) \/
  (exists k r, s = Scope :: Comb k :: r /\ norm_rel s = Scope :: Comb k :: norm true r) \/
  (norm_rel s = norm true s /\ no_scope_first (norm true s) /\ match s with Scope :: Comb _ :: _ => False | _ => True end).
Proof.
  intros H.
  assert (PL : match s with Scope :: Comb _ :: _ => False | _ => True end -> hidden_scope s = false -> norm_rel s = norm true s /\ no_scope_first (norm true s) /\ match s with Scope :: Comb _ :: _ => False | _ => True end).
  { intros A B. split; [|split; [apply hidden_false; exact B|exact A]]. destruct s as [|[] [|[] s]]; try reflexivity; try destruct A. }
  destruct s as [|[] [|[] s]]; try (right; right; apply PL; [exact I|exact H]).
  destruct k; try (right; left; eexists; eexists; split; reflexivity). left. exists s. split; [reflexivity|]. split; [reflexivity|]. apply hidden_false. exact H.
Qed.
Lemma rel_shape {A} s (x y : A) : no_scope_first s -> match s with Scope :: Comb _ :: _ => x | _ => y end = y.
Proof. destruct s as [|[] s]; try reflexivity. intros []. Qed.

Definition rel_spec (s : sel) : spec := match s with Scope :: Comb _ :: x => specificity x | _ => specificity s end.
Lemma spec_shape s : no_scope_first s -> rel_spec s = specificity s.
Proof. destruct s as [|[] s]; try reflexivity. intros []. Qed.
Lemma fine_inv cfg c : fine_comp cfg c ->
  match c with
  | Not l | Is l | Where l | Any _ l | NthOf _ _ _ l => Forall (fine_sel cfg) l
  | Has l => Forall (fine_sel cfg) l /\ Forall no_hidden_scope l
  | Host (Some s) | Slotted s | CueFn _ s => fine_sel cfg s
  | _ => True
  end.
Proof. intros H. destruct H; auto. destruct c; try destruct H; try exact I. destruct s; [destruct H|exact I]. Qed.
Lemma comp_keeps cfg c : fine_comp cfg c -> keeps c.
Proof.
  assert (ALL : forall l, Forall (Forall (fun c => fine_comp cfg c -> keeps c)) l -> Forall (fine_sel cfg) l -> Forall (Forall keeps) l).
  { intros l H F. rewrite Forall_forall in *. intros s I. specialize (H s I). specialize (F s I). inversion F as [? Fs _]; subst. rewrite Forall_forall in *. auto. }
  assert (ONE : forall s, Forall (fun c => fine_comp cfg c -> keeps c) s -> fine_sel cfg s -> Forall keeps s).
  { intros s H F. inversion F as [? Fs _]; subst. rewrite Forall_forall in *. auto. }
  assert (ID : forall c, norm_comp c = [c] -> keeps c).
  { intros x E. unfold keeps. rewrite E. unfold specificity. cbn [fold_right]. apply add_zero. }
  induction c using comp_ind'; intros F; apply fine_inv in F; rename F into Fx.
  - apply ID. destruct c; try destruct H; try reflexivity. destruct s; [destruct H|reflexivity].
  - unfold keeps. change (specificity [Not (map (norm true) l)] = most l). rewrite <- most_keeps by auto. apply add_zero.
  - unfold keeps. change (norm_comp (Is l)) with (if should_unwrap l then match l with s :: _ => norm true s | [] => [] end else [Is (map (norm true) l)]).
    change (comp_spec (Is l)) with (most l). destruct (should_unwrap l) eqn:SU.
    + destruct l as [|s [|]]; try discriminate SU. pose proof (ALL _ H Fx) as K. inversion K; subst. unfold norm. rewrite walk_keeps by assumption. symmetry. apply larger_zero.
    + change (add (most (map (norm true) l)) zero = most l). rewrite add_zero. apply most_keeps. auto.
  - reflexivity.
  - unfold keeps. change (add (most (map (norm true) l)) zero = most l). rewrite add_zero. apply most_keeps. auto.
  - unfold keeps. change (add (most_rel (map norm_rel l)) zero = most_rel l). rewrite add_zero. destruct Fx as (Fx & FH). pose proof (ALL _ H Fx) as K. clear - K FH.
    induction K as [|s l K1 K2 IH]; [reflexivity|]. inversion FH as [|? ? H1 H2]; subst. cbn [map]. unfold most_rel in *. cbn [fold_right]. rewrite (IH H2). f_equal. change (rel_spec (norm_rel s) = rel_spec s).
    destruct (rel_cases s H1) as [(r & -> & E & NS)|[(k & r & -> & E)|(E & NS & NC)]]; rewrite E.
    + rewrite spec_shape by exact NS. inversion K1 as [|? ? _ K3]; subst. inversion K3; subst. apply walk_keeps. assumption.
    + inversion K1 as [|? ? _ K3]; subst. inversion K3; subst. apply walk_keeps. assumption.
    + rewrite spec_shape by exact NS. replace (rel_spec s) with (specificity s); [apply walk_keeps; exact K1|]. destruct s as [|[] [|[] s]]; try reflexivity. destruct NC.
  - unfold keeps. change (add (add (Spec 0 1 0) (most (map (norm true) l))) zero = add (Spec 0 1 0) (most l)). rewrite add_zero. f_equal. apply most_keeps. auto.
  - unfold keeps. change (add (add (Spec 0 1 0) (specificity (norm true s))) zero = add (Spec 0 1 0) (specificity s)). rewrite add_zero. f_equal. apply walk_keeps. auto.
  - unfold keeps. change (add (add (Spec 0 0 1) (specificity (norm true s))) zero = add (Spec 0 0 1) (specificity s)). rewrite add_zero. f_equal. apply walk_keeps. auto.
  - unfold keeps. change (add (add (Spec 0 0 1) (specificity (norm true s))) zero = add (Spec 0 0 1) (specificity s)). rewrite add_zero. f_equal. apply walk_keeps. auto.
Qed.

(** ** Matching *)
Section Match.
Variable d : document.
Notation E := (element d).
Definition same (P Q : E -> Prop) : Prop := forall e, P e <-> Q e.
Lemma step_simple h P c e : is_comb c = false -> step d h P c e = (P e /\ h c e).
Proof. destruct c; try reflexivity. discriminate. Qed.
Lemma step_same h h' c P Q : same P Q -> (is_comb c = false -> same (h c) (h' c)) -> same (step d h P c) (step d h' Q c).
Proof.
  intros PQ H e. destruct c; try (cbn [step]; rewrite (PQ e), (H eq_refl e); reflexivity).
  cbn [step]. split; intros (x & A & B); exists x; split; auto; apply PQ; exact A.
Qed.
Lemma walk_same sc s : forall P Q, same P Q -> same (walk_from d sc s P) (walk_from d sc s Q).
Proof. induction s as [|c s IH]; intros P Q H; [exact H|]. unfold walk_from in *. cbn [fold_left]. apply IH. apply step_same; [exact H|]. intros _ e. reflexivity. Qed.
Lemma walk_app sc a b P : walk_from d sc (a ++ b) P = walk_from d sc b (walk_from d sc a P).
Proof. apply fold_left_app. Qed.
(** What is read back for a component does what the component does *)
Definition acts (c : comp) : Prop := forall sc P, same (walk_from d sc (norm_comp c) P) (step d (holds d sc) P c).
Lemma walk_acts sc s : Forall acts s -> forall x P, same (walk_from d sc (walk x (wn s)) P) (walk_from d sc s P).
Proof.
  induction 1 as [|c s A H IH]; intros x P; [intros e; reflexivity|]. cbn [map walk]. rewrite walk_app. intros e. rewrite (IH _ _ e). unfold walk_from at 3. cbn [fold_left]. fold (walk_from d sc s (step d (holds d sc) P c)). apply walk_same.
  destruct (is_univ c && negb (keep x (wn s))) eqn:U; [|apply A]. apply andb_true_iff in U. destruct U as [U _]. destruct c; try discriminate U. intros e0. cbn. tauto.
Qed.
Lemma norm_acts sc s P : Forall acts s -> same (walk_from d sc (norm true s) P) (walk_from d sc s P).
Proof. intros H. apply walk_acts. exact H. Qed.
(** The folds inside [holds] *)
Lemma fold_step (h : comp -> E -> Prop) s : forall P Q, same P Q ->
  same (fold_left (fun (P : E -> Prop) c e => match c with Comb k => exists e', P e' /\ related d k e' e | _ => P e /\ h c e end) s P) (fold_left (step d h) s Q).
Proof.
  induction s as [|c s IH]; intros P Q H; [exact H|]. cbn [fold_left]. apply IH. intros e. destruct c; cbn [step]; try (rewrite (H e); reflexivity).
  split; intros (x & A & B); exists x; split; auto; apply H; exact A.
Qed.
Definition some (sc : E) (l : list sel) (e : E) : Prop := Exists (fun s => matches d sc s e) l.
Definition rel (a : E) (s : sel) (e : E) : Prop :=
  match s with Scope :: Comb _ :: _ => matches d a s e | _ => walk_from d a s (fun x => exists y, y = a /\ related d Descendant y x) e end.
Lemma some_fold sc l e : fold_right (fun s (r : Prop) =>
   fold_left (fun (P : E -> Prop) c e => match c with Comb k => exists e', P e' /\ related d k e' e | _ => P e /\ holds d sc c e end) s (fun _ => True) e \/ r) False l <-> some sc l e.
Proof.
  induction l as [|s l IH]; cbn [fold_right]; [split; [intros []|intros H; inversion H]|]. rewrite IH. unfold some. rewrite Exists_cons. rewrite (fold_step _ s _ (fun _ => True) (fun _ => iff_refl _) e). reflexivity.
Qed.
Lemma holds_some sc l : same (holds d sc (Is l)) (some sc l) /\ same (holds d sc (Where l)) (some sc l) /\ (forall p, same (holds d sc (Any p l)) (some sc l)).
Proof. repeat split; apply some_fold. Qed.
Lemma holds_not sc l : same (holds d sc (Not l)) (fun e => ~ some sc l e).
Proof. intros e. cbn [holds]. rewrite some_fold. reflexivity. Qed.
Lemma holds_nth sc t a b l : same (holds d sc (NthOf t a b l)) (counted d t a b (some sc l)).
Proof. intros e. cbn [holds]. apply counted_same. intros x. apply some_fold. Qed.
Lemma holds_host sc s : same (holds d sc (Host (Some s))) (fun e => basic d (Host None) e /\ matches d sc s e).
Proof. intros e. cbn [holds]. rewrite (fold_step _ s _ (fun _ => True) (fun _ => iff_refl _) e). reflexivity. Qed.
Lemma holds_slotted sc s : same (holds d sc (Slotted s)) (matches d sc s).
Proof. intros e. cbn [holds]. apply (fold_step _ s _ (fun _ => True) (fun _ => iff_refl _) e). Qed.
Lemma holds_cue sc g s : same (holds d sc (CueFn g s)) (fun e => basic d (PElement (if g then CueRegion else Cue)) e /\ matches d sc s e).
Proof. intros e. cbn [holds]. rewrite (fold_step _ s _ (fun _ => True) (fun _ => iff_refl _) e). reflexivity. Qed.
Lemma holds_has sc l : same (holds d sc (Has l)) (fun e => exists e', Exists (fun s => rel e s e') l).
Proof.
  intros e. cbn [holds]. split; intros (x & H); exists x; revert H.
  - induction l as [|s l IH]; cbn [fold_right]; [intros []|]. intros [H|H]; [left|right; auto]. revert H. unfold rel. destruct s as [|[] [|[] s]]; apply fold_step; intros y; reflexivity.
  - induction l as [|s l IH]; cbn [fold_right]; [intros H; inversion H|]. intros H. inversion H as [? ? H1|? ? H1]; subst; [left|right; auto]. revert H1. unfold rel. destruct s as [|[] [|[] s]]; apply fold_step; intros y; reflexivity.
Qed.

Lemma some_acts sc l : Forall (Forall acts) l -> same (some sc (map (norm true) l)) (some sc l).
Proof.
  intros H e. induction H as [|s l A H IH]; [reflexivity|]. cbn [map]. unfold some in *. rewrite !Exists_cons, IH. unfold matches. rewrite (norm_acts sc s _ A e). reflexivity.
Qed.
(** Without combinators the components just hold together *)
Lemma simple_walk sc s : existsb is_comb s = false -> forall P, same (walk_from d sc s P) (fun e => P e /\ matches d sc s e).
Proof.
  induction s as [|c s IH]; intros H P e; [unfold matches; cbn; tauto|]. cbn [existsb] in H. apply orb_false_iff in H. destruct H as [Hc H].
  unfold matches. unfold walk_from. cbn [fold_left]. change (fold_left (step d (holds d sc)) s) with (walk_from d sc s). rewrite (IH H (step d (holds d sc) P c) e), (IH H (step d (holds d sc) (fun _ => True) c) e).
  destruct c; try discriminate Hc; cbn [step]; tauto.
Qed.
Lemma rel_acts a s : Forall acts s -> no_hidden_scope s -> same (rel a (norm_rel s)) (rel a s).
Proof.
  intros A H e. destruct (rel_cases s H) as [(r & -> & E & NS)|[(k & r & -> & E)|(E & NS & NC)]]; rewrite E; unfold rel.
  - rewrite rel_shape by exact NS. inversion A as [|? ? _ A1]; subst. inversion A1 as [|? ? _ A2]; subst. rewrite (norm_acts a r _ A2 e).
    unfold matches. unfold walk_from at 2. cbn [fold_left]. fold (walk_from d a r). apply walk_same. intros x. cbn [step]. split; intros (y & Y); exists y; cbn [holds] in *; tauto.
  - inversion A as [|? ? _ A1]; subst. inversion A1 as [|? ? _ A2]; subst. unfold matches. unfold walk_from. cbn [fold_left]. apply (norm_acts a r _ A2 e).
  - rewrite rel_shape by exact NS. replace (match s with Scope :: Comb _ :: _ => matches d a s e | _ => walk_from d a s (fun x => exists y, y = a /\ related d Descendant y x) e end)
      with (walk_from d a s (fun x => exists y, y = a /\ related d Descendant y x) e); [apply norm_acts; exact A|]. destruct s as [|[] [|[] s]]; try reflexivity. destruct NC.
Qed.
Lemma comp_acts cfg c : fine_comp cfg c -> acts c.
Proof.
  assert (ALL : forall l, Forall (Forall (fun c => fine_comp cfg c -> acts c)) l -> Forall (fine_sel cfg) l -> Forall (Forall acts) l).
  { intros l H F. rewrite Forall_forall in *. intros s I. specialize (H s I). specialize (F s I). inversion F as [? Fs _]; subst. rewrite Forall_forall in *. auto. }
  assert (ONE : forall s, Forall (fun c => fine_comp cfg c -> acts c) s -> fine_sel cfg s -> Forall acts s).
  { intros s H F. inversion F as [? Fs _]; subst. rewrite Forall_forall in *. auto. }
  assert (ID : forall c, norm_comp c = [c] -> acts c).
  { intros x Ex sc P e. rewrite Ex. reflexivity. }
  assert (SUB : forall c c', norm_comp c = [c'] -> is_comb c = false -> is_comb c' = false -> (forall sc, same (holds d sc c') (holds d sc c)) -> acts c).
  { intros x y Ex X Y H sc P e. rewrite Ex. unfold walk_from. cbn [fold_left]. rewrite !step_simple by assumption. rewrite (H sc e). reflexivity. }
  induction c using comp_ind'; intros F; apply fine_inv in F; rename F into Fx.
  - apply ID. destruct c; try destruct H; try reflexivity. destruct s; [destruct H|reflexivity].
  - apply (SUB _ (Not (map (norm true) l))); try reflexivity. intros sc e. rewrite !(holds_not sc _ e). rewrite (some_acts sc l (ALL _ H Fx) e). reflexivity.
  - destruct (should_unwrap l) eqn:SU.
    + destruct l as [|s [|]]; try discriminate SU. pose proof (ALL _ H Fx) as K. inversion K as [|? ? Ks _]; subst. intros sc P e.
      change (norm_comp (Is [s])) with (if should_unwrap [s] then norm true s else [Is (map (norm true) [s])]). rewrite SU. rewrite (norm_acts sc s P Ks e).
      assert (NC : existsb is_comb s = false). { cbn [should_unwrap] in SU. apply andb_true_iff in SU. destruct SU as [_ SU]. unfold is_simple in SU. apply negb_true_iff in SU. exact SU. }
      rewrite (simple_walk sc s NC P e). cbn [step]. rewrite (proj1 (holds_some sc [s]) e). unfold some. rewrite Exists_cons, Exists_nil. tauto.
    + apply (SUB _ (Is (map (norm true) l))); try reflexivity.
      { change (norm_comp (Is l)) with (if should_unwrap l then match l with s :: _ => norm true s | [] => [] end else [Is (map (norm true) l)]). rewrite SU. reflexivity. }
      intros sc e. rewrite !(proj1 (holds_some sc _) e). apply some_acts. auto.
  - apply (SUB _ (Where (map (norm true) l))); try reflexivity. intros sc e. rewrite !(proj1 (proj2 (holds_some sc _)) e). apply some_acts. auto.
  - apply (SUB _ (Any p (map (norm true) l))); try reflexivity. intros sc e. rewrite !(proj2 (proj2 (holds_some sc _)) p e). apply some_acts. auto.
  - apply (SUB _ (Has (map norm_rel l))); try reflexivity. intros sc e. rewrite !(holds_has sc _ e). destruct Fx as (Fx & FH). pose proof (ALL _ H Fx) as K.
    assert (EX : forall e', Exists (fun s => rel e s e') (map norm_rel l) <-> Exists (fun s => rel e s e') l).
    { intros e'. clear - K FH. induction K as [|s l K1 K2 IH]; [reflexivity|]. inversion FH as [|? ? H1 H2]; subst. cbn [map]. rewrite !Exists_cons, (IH H2). rewrite (rel_acts e s K1 H1 e'). reflexivity. }
    split; intros (e' & X); exists e'; apply EX; exact X.
  - apply (SUB _ (NthOf t a b (map (norm true) l))); try reflexivity. intros sc e. rewrite !(holds_nth sc _ _ _ _ e). apply counted_same. apply some_acts. auto.
  - apply (SUB _ (Host (Some (norm true s)))); try reflexivity. intros sc e. rewrite !(holds_host sc _ e). unfold matches. rewrite (norm_acts sc s _ (ONE _ H Fx) e). reflexivity.
  - apply (SUB _ (Slotted (norm true s))); try reflexivity. intros sc e. rewrite !(holds_slotted sc _ e). apply norm_acts. auto.
  - apply (SUB _ (CueFn g (norm true s))); try reflexivity. intros sc e. rewrite !(holds_cue sc _ _ e). unfold matches. rewrite (norm_acts sc s _ (ONE _ H Fx) e). reflexivity.
Qed.
End Match.

Lemma norm_meaning cfg s : fine_sel cfg s -> same_meaning s (norm true s).
Proof.
  intros F. inversion F as [? Fs _]; subst. split.
  - intros d scope e. symmetry. unfold matches. apply norm_acts. eapply Forall_impl; [|exact Fs]. intros c. apply comp_acts.
  - symmetry. apply walk_keeps. eapply Forall_impl; [|exact Fs]. intros c. apply comp_keeps.
Qed.
