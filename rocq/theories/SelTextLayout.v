(** * What is written for a selector is what is written for its components *)
From Coq Require Import List Bool ZArith Ascii String Lia Arith.
Import ListNotations.
From Verif Require Import SelTextModel SelTextSpec SelTextProofs.
Local Open Scope list_scope.

Definition alone_comps (c : list comp) : bool :=
  match c with [] => true | Comb PseudoElement :: _ | Comb SlotAssignment :: _ => false | Comb _ :: _ => true | _ => false end.
(** The type selector as it is written *)
Definition drop (first : bool) (n t : list comp) (al : bool) : list comp :=
  match t with [Univ] => if match n with [] => al | _ => first && al end then t else [] | _ => t end.
Definition ns_ok (first : bool) (s : sel) : Prop := forall a n b, s = a ++ Nesting :: n :: Univ :: b -> is_namespace n = true -> first = true /\ a = [].

Lemma type_cases t : t = [] \/ named t ->
  t = [] \/ t = [Univ] \/ (exists s, t = [Local s]) \/ (exists n, is_namespace n = true /\ t = [n; Univ]) \/ (exists n s, is_namespace n = true /\ t = [n; Local s]).
Proof.
  intros [->|([] & [nm|] & ->)]; cbn; eauto 10; right; right; right.
  - right. exists NoNs, nm. auto.
  - left. exists NoNs. auto.
  - right. exists AnyNs, nm. auto.
  - left. exists AnyNs. auto.
  - right. exists (Ns p), nm. auto.
  - left. exists (Ns p). auto.
Qed.

Section Generic.
Context {A : Type} (f : comp -> list A).
Notation w s := (map (fun x => (x, f x)) s).
Lemma alone_map c : alone (w c) = alone_comps c.
Proof. destruct c as [|[] c]; reflexivity. Qed.
Lemma written_map s : all_written (w s) = flat_map f s.
Proof. unfold all_written. induction s as [|c s IH]; [reflexivity|]. cbn. rewrite IH. reflexivity. Qed.
Lemma walk_flat x s : Forall (fun c => is_univ c = false) s -> walk x (w s) = flat_map f s.
Proof. intros H. revert x. induction H as [|c s Hc H IH]; intros x; [reflexivity|]. cbn [map walk flat_map]. rewrite Hc, IH. reflexivity. Qed.
Lemma plain_univ c : Forall (fun c => plain c = true) c -> Forall (fun c => is_univ c = false) c.
Proof. apply Forall_impl. intros []; auto; discriminate. Qed.
Lemma walk_compound first n t c : (n = [] \/ n = [Nesting]) -> (t = [] \/ named t) -> Forall (fun c => plain c = true) c -> ns_ok first (n ++ t ++ c) ->
  walk (start_of first) (w (n ++ t ++ c)) = flat_map f (n ++ drop first n t (alone_comps c) ++ c).
Proof.
  intros Hn Ht Hc NS. pose proof (plain_univ c Hc) as U. pose proof (fun x => walk_flat x c U) as WF.
  destruct (type_cases t Ht) as [->|[->|[[s ->]|[(k & K & ->)|(k & s & K & ->)]]]].
  - cbn [app drop]. apply walk_flat. apply Forall_app. split; [|exact U]. destruct Hn as [->| ->]; repeat constructor.
  - destruct Hn as [->| ->]; cbn [app map walk is_univ andb drop]; rewrite <- (alone_map c).
    + replace (keep (start_of first) (w c)) with (alone (w c)) by (destruct first; reflexivity). rewrite WF. destruct (alone (w c)); reflexivity.
    + destruct first; cbn [start_of after keep andb]; rewrite WF; [destruct (alone (w c))|]; reflexivity.
  - destruct Hn as [->| ->]; cbn [app map walk is_univ andb drop flat_map]; rewrite WF; reflexivity.
  - destruct Hn as [->| ->].
    + destruct k; try discriminate K; destruct first; cbn [app map walk is_univ andb drop flat_map after start_of keep negb]; rewrite WF; reflexivity.
    + destruct (NS [] k c eq_refl K) as [-> _]. destruct k; try discriminate K; cbn [app map walk is_univ andb drop flat_map after start_of keep negb]; rewrite WF; reflexivity.
  - destruct Hn as [->| ->]; destruct k; try discriminate K; cbn [app map walk is_univ andb drop flat_map]; rewrite WF; reflexivity.
Qed.
Definition real (k : combinator) : Prop := match k with PseudoElement | SlotAssignment | PartComb => False | _ => True end.
Lemma walk_join x s k r : real k -> walk x (w (s ++ Comb k :: r)) = walk x (w s) ++ f (Comb k) ++ walk Start (w r).
Proof.
  intros K. revert x. induction s as [|c s IH]; intros x; [reflexivity|]. cbn [app map walk]. rewrite IH, <- app_assoc.
  assert (Q : keep x (w (s ++ Comb k :: r)) = keep x (w s)); [|rewrite Q; reflexivity].
  unfold keep. rewrite !alone_map. destruct s; [destruct k; try reflexivity; destruct K|reflexivity].
Qed.

Lemma filter_plain b c : Forall (fun c => is_univ c = false) c -> filter (fun x : comp * list A => negb (is_univ (fst x) && b)) (w c) = w c.
Proof. induction 1 as [|c l H Hl IH]; [reflexivity|]. cbn. rewrite H, IH. reflexivity. Qed.
Lemma compound_flat first next c : Forall (fun c => is_univ c = false) c -> write_compound first next (w c) = flat_map f c.
Proof. intros H. unfold write_compound. rewrite filter_plain by exact H. destruct (univ_alone _ _ _); apply written_map. Qed.
Definition alone2 (c0 : list comp) (next : option combinator) : bool :=
  match c0, next with [], (Some PseudoElement | Some SlotAssignment) => false | [], _ => true | _, _ => false end.
Lemma write_compound_flat first next n t c : (n = [] \/ n = [Nesting]) -> (t = [] \/ named t) -> Forall (fun c => plain c = true) c -> ns_ok first (n ++ t ++ c) ->
  write_compound first next (w (n ++ t ++ c)) = flat_map f (n ++ drop first n t (alone2 c next) ++ c).
Proof.
  intros Hn Ht Hc NS. pose proof (plain_univ c Hc) as U. pose proof (fun b => filter_plain b c U) as FP.
  destruct (type_cases t Ht) as [->|[->|[[s ->]|[(k & K & ->)|(k & s & K & ->)]]]].
  - cbn [app drop]. apply compound_flat. apply Forall_app. split; [|exact U]. destruct Hn as [->| ->]; repeat constructor.
  - destruct Hn as [->| ->].
    + unfold write_compound.
      assert (UA : univ_alone first next (w ([] ++ [Univ] ++ c)) = alone2 c next) by (destruct first, c as [|? ?], next as [[]|]; reflexivity).
      rewrite UA. cbn [drop]. destruct (alone2 c next); [apply written_map|]. replace (can_elide first (w ([] ++ [Univ] ++ c))) with true by (destruct first; reflexivity).
      cbn [app map filter is_univ andb fst negb]. rewrite FP. apply written_map.
    + unfold write_compound.
      assert (UA : univ_alone first next (w ([Nesting] ++ [Univ] ++ c)) = first && alone2 c next) by (destruct first, c as [|? ?], next as [[]|]; reflexivity).
      rewrite UA. cbn [drop]. destruct (first && alone2 c next); [apply written_map|]. replace (can_elide first (w ([Nesting] ++ [Univ] ++ c))) with true by (destruct first; reflexivity).
      cbn [app map filter is_univ andb fst negb]. rewrite FP. apply (written_map (Nesting :: c)).
  - cbn [drop]. apply compound_flat. apply Forall_app. split; [destruct Hn as [->| ->]; repeat constructor|]. constructor; auto.
  - assert (CE : can_elide first (w (n ++ [k; Univ] ++ c)) = false).
    { destruct Hn as [->| ->]; [destruct first, k; try discriminate K; reflexivity|]. destruct (NS [] k c eq_refl K) as [-> _]. destruct k; try discriminate K; reflexivity. }
    unfold write_compound. rewrite CE. replace (drop first n [k; Univ] (alone2 c next)) with [k; Univ] by (destruct k; reflexivity). destruct (univ_alone _ _ _); [apply written_map|].
    replace (filter _ _) with (w (n ++ [k; Univ] ++ c)); [apply written_map|].
    clear. generalize (n ++ [k; Univ] ++ c). intros l. induction l as [|x l IH]; [reflexivity|]. cbn. rewrite andb_false_r. cbn. f_equal. exact IH.
  - replace (drop first n [k; Local s] (alone2 c next)) with [k; Local s] by (destruct k; reflexivity). apply compound_flat. apply Forall_app. split; [destruct Hn as [->| ->]; repeat constructor|]. destruct k; try discriminate K; repeat (constructor; auto).
Qed.

(** Compounds and combinators *)
Lemma split_cons s : exists x m, split_compounds (w s) = x :: m.
Proof. induction s as [|c s (x & m & IH)]; [cbn; eauto|]. destruct c; cbn [map split_compounds]; rewrite ?IH; eauto. Qed.
Lemma split_app a c : existsb is_comb a = false -> split_compounds (w (a ++ c)) = match split_compounds (w c) with x :: m => (w a ++ x) :: m | [] => [] end.
Proof.
  intros H. induction a as [|y a IH].
  - cbn [app map]. destruct (split_compounds (w c)) as [|x m] eqn:E; [|reflexivity]. destruct (split_cons c) as (x & m & E'). rewrite E' in E. discriminate.
  - cbn [existsb] in H. apply orb_false_iff in H. destruct H as [Hy H]. specialize (IH H). destruct (split_cons c) as (x & m & E). rewrite E in *.
    destruct y; try discriminate Hy; cbn [app map split_compounds]; rewrite IH; reflexivity.
Qed.
Lemma combs_app a c : existsb is_comb a = false -> combs_of (w (a ++ c)) = combs_of (w c).
Proof. intros H. induction a as [|y a IH]; [reflexivity|]. cbn [existsb] in H. apply orb_false_iff in H. destruct H as [Hy H]. destruct y; try discriminate Hy; cbn; auto. Qed.

Context (comb : combinator -> list A) (f_comb : forall k, f (Comb k) = comb k) (f_pseudo : forall k, ~ real k -> comb k = []).
Lemma layout_mid first a k s : existsb is_comb a = false -> a <> [] ->
  layout comb false first (combs_of (w (a ++ Comb k :: s))) (split_compounds (w (a ++ Comb k :: s)))
  = write_compound first (Some k) (w a) ++ comb k ++ layout comb false false (combs_of (w s)) (split_compounds (w s)).
Proof.
  intros H E. rewrite combs_app, split_app by exact H. cbn [map combs_of split_compounds]. rewrite app_nil_r.
  destruct a as [|y a]; [contradiction|]. cbn [map layout tl hd_error app]. reflexivity.
Qed.
Lemma layout_flat combs : Forall (fun k => comb k = []) combs -> forall l first, Forall (fun c => exists x, c = w x /\ Forall (fun c => is_univ c = false) x) l ->
  layout comb false first combs l = flat_map all_written l.
Proof.
  intros H l. revert combs H. induction l as [|c l IH]; intros combs H first Hl; [reflexivity|].
  inversion Hl as [|? ? (x & -> & U) Hl']; subst. cbn [layout flat_map app].
  assert (Ht : Forall (fun k => comb k = []) (tl combs)) by (destruct H; [constructor|assumption]).
  destruct x as [|y x]; cbn [map]; [rewrite IH by auto; reflexivity|].
  pose proof (compound_flat first (hd_error combs) (y :: x) U) as CF. cbn [map] in CF. rewrite CF, IH by auto.
  rewrite <- (written_map (y :: x)). cbn [map]. destruct H as [|k ks Hk _]; [reflexivity|]. rewrite Hk. reflexivity.
Qed.
Lemma plain_combs c : Forall (fun c => plain c = true) c -> Forall (fun k => comb k = []) (combs_of (w c)).
Proof.
  induction 1 as [|y c Hy H IH]; [constructor|]. destruct y; cbn [map combs_of]; auto. constructor; [|exact IH]. apply f_pseudo. destruct k; cbn in *; auto; discriminate.
Qed.
Lemma plain_split c : Forall (fun c => plain c = true) c ->
  flat_map all_written (split_compounds (w c)) = flat_map f c /\ Forall (fun c => exists x, c = w x /\ Forall (fun c => is_univ c = false) x) (split_compounds (w c)).
Proof.
  induction 1 as [|y c Hy H [IH1 IH2]]; [split; [reflexivity|constructor; [exists []; auto|constructor]]|].
  assert (E : (exists k, y = Comb k) \/ is_comb y = false) by (destruct y; eauto).
  destruct E as [[k ->]|E].
  - cbn [map split_compounds flat_map]. rewrite IH1, f_comb, f_pseudo by (destruct k; cbn in *; auto; discriminate). split; [reflexivity|constructor; [exists []; auto|exact IH2]].
  - pose proof (split_app [y] c) as S. cbn [existsb app] in S. rewrite E in S. specialize (S eq_refl). destruct (split_compounds (w c)) as [|x m] eqn:SP; [destruct (split_cons c) as (x & m & E'); rewrite E' in SP; discriminate|].
    rewrite S. cbn [map flat_map app] in *. rewrite <- IH1. inversion IH2 as [|? ? (x0 & -> & U) U2]; subst. split; [cbn; rewrite app_assoc; reflexivity|].
    constructor; [|exact U2]. exists (y :: x0). split; [reflexivity|]. constructor; [destruct y; auto; discriminate|exact U].
Qed.
(** The last compound, which may hold pseudo elements *)
Lemma cut c : Forall (fun c => plain c = true) c -> exists c0 d, c = c0 ++ d /\ existsb is_comb c0 = false /\ (d = [] \/ exists k d', d = Comb k :: d').
Proof.
  induction 1 as [|y c Hy H (c0 & d & -> & H0 & Hd)]; [exists [], []; auto|].
  destruct (is_comb y) eqn:E; [exists [], (y :: c0 ++ d); destruct y; try discriminate E; eauto 10|].
  exists (y :: c0), d. cbn. rewrite E. auto.
Qed.
Lemma layout_end first n t c : (n = [] \/ n = [Nesting]) -> (t = [] \/ named t) -> Forall (fun c => plain c = true) c -> ns_ok first (n ++ t ++ c) ->
  layout comb false first (combs_of (w (n ++ t ++ c))) (split_compounds (w (n ++ t ++ c))) = flat_map f (n ++ drop first n t (alone_comps c) ++ c).
Proof.
  intros Hn Ht Hc NS.
  assert (NC : existsb is_comb (n ++ t) = false).
  { rewrite existsb_app. destruct (type_cases t Ht) as [->|[->|[[s ->]|[(k & K & ->)|(k & s & K & ->)]]]], Hn as [->| ->]; cbn; auto; destruct k; try discriminate K; reflexivity. }
  destruct (cut c Hc) as (c0 & d & -> & C0 & Hd). apply Forall_app in Hc. destruct Hc as [Hc0 Hcd].
  assert (AL : alone_comps (c0 ++ d) = alone2 c0 (hd_error (combs_of (w d)))).
  { destruct c0 as [|y c0]; [|destruct y; try reflexivity; discriminate C0]. destruct Hd as [->|(k & d' & ->)]; [reflexivity|]. destruct k; reflexivity. }
  destruct (plain_split d Hcd) as [D1 D2].
  assert (E : split_compounds (w (n ++ t ++ c0 ++ d)) = w (n ++ t ++ c0) :: tl (split_compounds (w d)) /\ combs_of (w (n ++ t ++ c0 ++ d)) = combs_of (w d)).
  { replace (n ++ t ++ c0 ++ d) with ((n ++ t ++ c0) ++ d) by (rewrite <- !app_assoc; reflexivity).
    assert (NC' : existsb is_comb (n ++ t ++ c0) = false) by (rewrite app_assoc, existsb_app, NC; exact C0).
    rewrite split_app, combs_app by exact NC'. split; [|reflexivity]. destruct Hd as [->|(k & d' & ->)]; cbn [map split_compounds tl]; rewrite app_nil_r; reflexivity. }
  destruct E as [-> ->].
  assert (FD : flat_map all_written (tl (split_compounds (w d))) = flat_map f d).
  { destruct Hd as [->|(k & d' & ->)]; [reflexivity|]. cbn [map split_compounds tl flat_map] in *. exact D1. }
  assert (TD : Forall (fun c => exists x, c = w x /\ Forall (fun c => is_univ c = false) x) (tl (split_compounds (w d)))).
  { destruct D2; [constructor|assumption]. }
  pose proof (plain_combs d Hcd) as PC.
  assert (WC : write_compound first (hd_error (combs_of (w d))) (w (n ++ t ++ c0)) = flat_map f (n ++ drop first n t (alone_comps (c0 ++ d)) ++ c0)).
  { rewrite AL. apply write_compound_flat; auto. intros a x b E K. apply (NS a x (b ++ d)); [|exact K]. rewrite !app_assoc in *. rewrite E, <- !app_assoc. reflexivity. }
  cbn [layout app].
  destruct (w (n ++ t ++ c0)) as [|y z] eqn:EW.
  - apply map_eq_nil in EW. apply app_eq_nil in EW. destruct EW as [-> EW]. apply app_eq_nil in EW. destruct EW as [-> ->]. cbn [app drop].
    rewrite layout_flat by auto. exact FD.
  - rewrite WC, layout_flat, FD; [|destruct PC; [constructor|assumption]|exact TD].
    replace (match combs_of (w d) with [] => [] | k :: _ => comb k end) with (@nil A) by (destruct PC as [|k ks Hk _]; [reflexivity|symmetry; exact Hk]).
    rewrite !flat_map_app, <- !app_assoc. reflexivity.
Qed.
End Generic.
