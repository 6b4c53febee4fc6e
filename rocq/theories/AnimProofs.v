(** * Proofs about the [animation] shorthand *)
From Coq Require Import List Bool QArith ZArith Ascii String Lia.
From Verif Require Import AnimModel AnimSpec.
Import ListNotations.
Local Open Scope string_scope.

(** ** Keywords *)
Lemma is_kw_iff kw s : is_kw kw s = true <-> lower s = kw.
Proof. unfold is_kw. apply String.eqb_eq. Qed.
Lemma keyword_in {A} (table : list (string * A)) s a : keyword table s = Some a -> In (lower s, a) table.
Proof.
  induction table as [|[kw b] r IH]; cbn; [discriminate|]. destruct (is_kw kw s) eqn:E; [|auto].
  intros [= ->]. apply is_kw_iff in E as ->. auto.
Qed.
Lemma in_keyword {A} (table : list (string * A)) s a : NoDup (map fst table) -> In (lower s, a) table -> keyword table s = Some a.
Proof.
  induction table as [|[kw b] r IH]; cbn; [contradiction|]. intros N H. inversion N as [|? ? N1 N2]. destruct (is_kw kw s) eqn:E.
  - destruct H as [H|H]; [now injection H as _ ->|]. exfalso. apply is_kw_iff in E. apply N1. rewrite <- E. apply in_map_iff. now exists (lower s, a).
  - destruct H as [H|H]; [|auto]. exfalso. injection H as -> _. unfold is_kw in E. now rewrite String.eqb_refl in E.
Qed.
Lemma reserved_iff s : is_kw "none" s = true \/ reserved s = true <-> In (lower s) ["none"; "initial"; "inherit"; "unset"; "default"; "revert"; "revert-layer"].
Proof.
  unfold reserved. cbn [existsb In]. rewrite !orb_true_iff, !is_kw_iff. intuition congruence.
Qed.

Definition acc (t : token) (s : slot) : option given :=
  match s with
  | SName => option_map (fun n => GName match n with NoName => None | Ident s | Str s => Some s end) (as_name t)
  | SDuration => option_map GDuration (as_time t)
  | STiming => option_map (fun e => GTiming (curve_of e)) (as_easing t)
  | SCount => option_map (fun c => GCount match c with Number q => Some q | Infinite => None end) (as_count t)
  | SDirection => option_map GDirection (of_ident (keyword direction_keywords) t)
  | SPlay => option_map GPlay (of_ident (keyword play_keywords) t)
  | SDelay => option_map GDelay (as_time t)
  | SFill => option_map GFill (of_ident (keyword fill_keywords) t)
  | STimeline => option_map GTimeline (as_timeline t)
  end.
Definition fget (f : found) (s : slot) : option given :=
  match s with
  | SName => option_map (fun n => GName match n with NoName => None | Ident s | Str s => Some s end) (f_name f)
  | SDuration => option_map GDuration (f_duration f)
  | STiming => option_map (fun e => GTiming (curve_of e)) (f_timing f)
  | SCount => option_map (fun c => GCount match c with Number q => Some q | Infinite => None end) (f_count f)
  | SDirection => option_map GDirection (f_direction f)
  | SPlay => option_map GPlay (f_play f)
  | SDelay => option_map GDelay (f_delay f)
  | SFill => option_map GFill (f_fill f)
  | STimeline => option_map GTimeline (f_timeline f)
  end.

Ltac keys H := cbn in H; repeat (destruct H as [H|H]; [|]); try contradiction.
Lemma acc_valid t s g : acc t s = Some g <-> valid t g /\ slot_of g = s.
Proof.
  split.
  - intros H. destruct s; destruct t; cbn [acc as_name as_time as_easing as_count of_ident as_timeline option_map] in H; try discriminate.
    + destruct (is_kw "none" s) eqn:E; [injection H as <-; split; [apply VNoName; now apply is_kw_iff|reflexivity]|].
      destruct (reserved s) eqn:R; [discriminate|]. injection H as <-. split; [|reflexivity]. apply VName. rewrite <- reserved_iff. intros [X|X]; congruence.
    + injection H as <-. split; [apply VString|reflexivity].
    + injection H as <-. split; [apply VDuration|reflexivity].
    + injection H as <-. split; [apply VEasing|reflexivity].
    + destruct (keyword easing_keywords s) as [e|] eqn:E; [|discriminate]. injection H as <-. split; [|reflexivity]. apply VEasingKw.
      apply keyword_in in E. apply (in_map (fun p => (fst p, curve_of (snd p)))) in E. exact E.
    + injection H as <-. split; [apply VCount|reflexivity].
    + cbn [keyword] in H. destruct (is_kw "infinite" s) eqn:E; [|discriminate]. injection H as <-. split; [|reflexivity]. apply VInfinite. now apply is_kw_iff.
    + destruct (keyword direction_keywords s) as [e|] eqn:E; [|discriminate]. injection H as <-. split; [|reflexivity]. apply VDirection. now apply keyword_in in E.
    + destruct (keyword play_keywords s) as [e|] eqn:E; [|discriminate]. injection H as <-. split; [|reflexivity]. apply VPlay. now apply keyword_in in E.
    + injection H as <-. split; [apply VDelay|reflexivity].
    + destruct (keyword fill_keywords s) as [e|] eqn:E; [|discriminate]. injection H as <-. split; [|reflexivity]. apply VFill. now apply keyword_in in E.
    + injection H as <-. split; [apply VFunction|reflexivity].
    + destruct (is_kw "auto" s) eqn:E; [injection H as <-; split; [apply VAuto; now apply is_kw_iff|reflexivity]|].
      destruct (is_kw "none" s) eqn:E'; [injection H as <-; split; [apply VNoTimeline; now apply is_kw_iff|reflexivity]|].
      destruct (dashed s) eqn:D; [|discriminate]. injection H as <-. split; [now apply VDashed|reflexivity].
  - intros [V <-]. destruct V; cbn [slot_of acc as_name as_time as_easing as_count of_ident as_timeline option_map]; try reflexivity.
    + unfold easing_table in H. cbn in H.
      repeat (destruct H as [H|H]; [injection H as E <-; unfold easing_keywords, keyword, is_kw; rewrite <- E; reflexivity|]). contradiction.
    + unfold keyword, is_kw. rewrite H. reflexivity.
    + rewrite (in_keyword direction_keywords s d); [reflexivity| |exact H]. repeat constructor; cbn; intuition discriminate.
    + rewrite (in_keyword fill_keywords s f); [reflexivity| |exact H]. repeat constructor; cbn; intuition discriminate.
    + rewrite (in_keyword play_keywords s p); [reflexivity| |exact H]. repeat constructor; cbn; intuition discriminate.
    + unfold is_kw. rewrite H. reflexivity.
    + rewrite <- reserved_iff in H. destruct (is_kw "none" s); [tauto|]. destruct (reserved s); [tauto|]. reflexivity.
    + unfold is_kw. rewrite H. reflexivity.
    + unfold is_kw. rewrite H. reflexivity.
    + destruct s as [|c s]; [discriminate|]. assert (c = "-"%char) as ->.
      { destruct c as [[] [] [] [] [] [] [] []]; try discriminate H; reflexivity. }
      unfold dashed. rewrite H. reflexivity.
Qed.

Definition order : list slot := [SDuration; STiming; SDelay; SCount; SDirection; SFill; SPlay; SName; STimeline].
Definition idx (s : slot) : nat :=
  match s with SDuration => 0 | STiming => 1 | SDelay => 2 | SCount => 3 | SDirection => 4 | SFill => 5 | SPlay => 6 | SName => 7 | STimeline => 8 end.
Definition opens {A B} (v : option A) (a : option B) : bool := match v, a with None, Some _ => true | _, _ => false end.
Definition open (f : found) (t : token) (s : slot) : bool := opens (fget f s) (acc t s).
Definition update (f : slot -> option given) (s : slot) (g : given) : slot -> option given := fun s' => if slot_eqb s s' then Some g else f s'.
Lemma opens_map {A B C D} (f : A -> C) (g : B -> D) v a : opens (option_map f v) (option_map g a) = opens v a.
Proof. now destruct v, a. Qed.
Lemma opens_false {A} (v a : option A) set next : opens v a = false -> parse_prop v a set next = next.
Proof. destruct v, a; cbn; congruence. Qed.
Lemma opens_true {A B} (v : option A) (a : option B) : opens v a = true -> v = None /\ exists x, a = Some x.
Proof. destruct v, a; cbn; try discriminate. eauto. Qed.

Lemma step_find f t :
  match find (open f t) order with
  | Some s => exists f' g, step f t = Some f' /\ acc t s = Some g /\ forall s', fget f' s' = update (fget f) s g s'
  | None => step f t = None
  end.
Proof.
  destruct f as [n d e c di p de fi ti]. unfold step, order, find, open.
  cbn [fget acc f_name f_duration f_timing f_count f_direction f_play f_delay f_fill f_timeline]. rewrite !opens_map.
  Ltac hit O E := apply opens_true in O as [-> [? E]]; rewrite E; eexists; eexists; split; [reflexivity|split; [cbn [acc]; rewrite E; reflexivity|intros []; reflexivity]].
  Ltac try_slot v a := let O := fresh "O" in let E := fresh "E" in destruct (opens v a) eqn:O; [hit O E|rewrite (opens_false _ _ _ _ O)].
  try_slot d (as_time t). try_slot e (as_easing t). try_slot de (as_time t). try_slot c (as_count t).
  try_slot di (of_ident (keyword direction_keywords) t). try_slot fi (of_ident (keyword fill_keywords) t).
  try_slot p (of_ident (keyword play_keywords) t). try_slot n (as_name t). try_slot ti (as_timeline t). reflexivity.
Qed.

Lemma table_disjoint {A B} (l : list (string * A)) (m : list (string * B)) s a b :
  forallb (fun p => negb (existsb (fun q => String.eqb (fst p) (fst q)) m)) l = true -> In (s, a) l -> In (s, b) m -> False.
Proof.
  rewrite forallb_forall. intros H Ha Hb. specialize (H _ Ha). apply negb_true_iff in H.
  assert (existsb (fun q => String.eqb (fst (s, a)) (fst q)) m = true) as X; [|congruence].
  apply existsb_exists. exists (s, b). split; [assumption|]. apply String.eqb_refl.
Qed.
Lemma disjoint t g g' : valid t g -> valid t g' -> slot_of g <> slot_of g' -> prior (slot_of g) (slot_of g') \/ prior (slot_of g') (slot_of g).
Proof.
  intros V V' N.
  assert (forall s, s <> SName -> prior s SName \/ prior SName s) as PN.
  { intros s Hs. destruct s; try (left; constructor; discriminate); [contradiction|]. right. constructor. discriminate. }
  assert (forall s, s <> STimeline -> prior s STimeline) as PT by (intros s Hs; now constructor).
  destruct (slot_of g') eqn:E'; try (destruct (PN (slot_of g)); auto; fail); try (left; apply PT; assumption);
  (destruct (slot_of g) eqn:E; [destruct (PN (slot_of g')); rewrite ?E' in *; [discriminate|tauto..]|..|right; apply PT; discriminate]);
  try contradiction;
  destruct V; try discriminate E; inversion V'; subst; try discriminate E'; try (left; constructor; fail); try (right; constructor; fail); exfalso;
  repeat match goal with H : lower ?s = ?k |- _ => assert (In (lower s, tt) [(k, tt)]) by (rewrite H; left; reflexivity); clear H end;
  match goal with H : In (lower ?s, _) _, H' : In (lower ?s, _) _ |- _ => eapply (table_disjoint _ _ _ _ _); [|exact H|exact H'] end; reflexivity.
Qed.
Lemma prior_idx s s' : prior s s' -> (idx s < idx s')%nat.
Proof. destruct 1 as [|s N1 N2|s N]; [cbn; lia| |]; destruct s; cbn; congruence || lia. Qed.
Lemma find_order p s : find p order = Some s <-> p s = true /\ forall s', (idx s' < idx s)%nat -> p s' = false.
Proof.
  unfold order. split.
  - cbn [find]. intros H.
    repeat match type of H with (if ?b then _ else _) = _ => destruct b eqn:?; [injection H as <-; split; [assumption|intros [] L; cbn in L; try lia; assumption]|] end. discriminate.
  - intros [H L]. cbn [find].
    repeat match goal with |- (if p ?a then _ else _) = _ => destruct (p a) eqn:?;
      [f_equal; destruct s; try reflexivity; exfalso; first [rewrite (L a) in * by (cbn; lia); discriminate|congruence]|] end.
    destruct s; congruence.
Qed.
Lemma chosen_find f used t g : (forall s, In s used <-> fget f s <> None) ->
  (chosen used t g <-> find (open f t) order = Some (slot_of g) /\ acc t (slot_of g) = Some g).
Proof.
  intros U. unfold chosen. rewrite find_order. split.
  - intros (V & N & P). assert (acc t (slot_of g) = Some g) as A by (apply acc_valid; auto). split; [split|exact A].
    + unfold open. rewrite A. destruct (fget f (slot_of g)) eqn:F; [|reflexivity]. exfalso. apply N, U. congruence.
    + intros s' L. unfold open, opens. destruct (fget f s') eqn:F; [reflexivity|]. destruct (acc t s') as [g'|] eqn:A'; [|reflexivity].
      apply acc_valid in A' as [V' <-]. exfalso. assert (slot_of g' <> slot_of g) as D by (intros D; rewrite D in L; lia).
      destruct (disjoint _ _ _ V' V D) as [Q|Q].
      * apply (U (slot_of g')); [now apply P|assumption].
      * apply prior_idx in Q. lia.
  - intros ((O & L) & A). pose proof A as V. apply acc_valid in V as [V _]. split; [assumption|]. split.
    + intros I. apply U in I. unfold open, opens in O. destruct (fget f (slot_of g)); [discriminate|]. now apply I.
    + intros g' V' Q. apply U. intros F. specialize (L _ (prior_idx _ _ Q)). unfold open, opens in L. rewrite F in L.
      assert (acc t (slot_of g') = Some g') as A' by (apply acc_valid; auto). rewrite A' in L. discriminate.
Qed.

(** ** The loop reads as the specification does *)
Definition merge (f : slot -> option given) (gs : list given) (s : slot) : option given :=
  match f s with Some g => Some g | None => find (fun g => slot_eqb (slot_of g) s) gs end.
Lemma slot_eqb_iff a b : slot_eqb a b = true <-> a = b.
Proof. destruct a, b; cbn; split; congruence. Qed.
Lemma update_used f used g f' : (forall s, In s used <-> fget f s <> None) -> (forall s, fget f' s = update (fget f) (slot_of g) g s) ->
  forall s, In s (slot_of g :: used) <-> fget f' s <> None.
Proof.
  intros U F s. rewrite F. unfold update. cbn [In]. destruct (slot_eqb (slot_of g) s) eqn:E.
  - apply slot_eqb_iff in E. split; [discriminate|auto].
  - rewrite U. split; [intros [X|X]; [|assumption]|auto]. apply slot_eqb_iff in X. congruence.
Qed.
Lemma loop_complete used t gs : reads used t gs -> forall f, (forall s, In s used <-> fget f s <> None) ->
  exists f', parse_loop f t = (f', []) /\ forall s, fget f' s = merge (fget f) gs s.
Proof.
  induction 1 as [used|used t g r gs C R IH]; intros f U.
  - exists f. split; [reflexivity|]. intros s. unfold merge. now destruct (fget f s).
  - apply (chosen_find f) in C as [Fd A]; [|assumption]. pose proof (step_find f t) as S. rewrite Fd in S. destruct S as (f1 & g1 & E & A1 & F1).
    rewrite A in A1. injection A1 as <-. cbn [parse_loop]. rewrite E.
    destruct (IH f1 (update_used _ _ _ _ U F1)) as (f' & E' & F'). exists f'. split; [exact E'|]. intros s. rewrite F'. unfold merge. rewrite F1. unfold update. cbn [find].
    destruct (slot_eqb (slot_of g) s) eqn:Q; [|reflexivity]. apply slot_eqb_iff in Q as <-.
    destruct (fget f (slot_of g)) eqn:X; [|reflexivity]. exfalso. apply find_order in Fd as [O _]. unfold open, opens in O. rewrite X in O. discriminate.
Qed.
Lemma loop_sound t : forall f used f', (forall s, In s used <-> fget f s <> None) -> parse_loop f t = (f', []) -> exists gs, reads used t gs.
Proof.
  induction t as [|t r IH]; intros f used f' U H; [exists []; constructor|]. cbn [parse_loop] in H. destruct (step f t) as [f1|] eqn:E; [|discriminate].
  pose proof (step_find f t) as S. destruct (find (open f t) order) as [s|] eqn:Fd; [|congruence].
  destruct S as (f2 & g & E2 & A & F). rewrite E in E2. injection E2 as <-. pose proof A as V. apply acc_valid in V as [_ <-].
  destruct (IH f1 (slot_of g :: used) f' (update_used _ _ _ _ U F) H) as (gs & R). exists (g :: gs). constructor; [|assumption].
  apply (chosen_find f); auto.
Qed.

Lemma get_value gs f s : (forall s, fget f s = find (fun g => slot_eqb (slot_of g) s) gs) -> value (longhands (complete f)) s = value gs s.
Proof.
  intros F. assert (value gs s = match fget f s with Some g => g | None => initial s end) as ->.
  { rewrite F. clear F. induction gs as [|g gs IH]; cbn; [reflexivity|]. now destruct (slot_eqb (slot_of g) s). }
  clear F. destruct f as [n d e c di p de fi ti], s; cbn [fget value longhands complete a_name a_duration a_timing a_count a_direction a_play a_delay a_fill a_timeline
    f_name f_duration f_timing f_count f_direction f_play f_delay f_fill f_timeline slot_of slot_eqb].
  - destruct n as [[]|]; reflexivity.
  - now destruct d.
  - now destruct e.
  - destruct c as [[]|]; reflexivity.
  - now destruct di.
  - now destruct p.
  - now destruct de.
  - now destruct fi.
  - now destruct ti.
Qed.
Lemma nothing_used s : In s [] <-> fget nothing s <> None.
Proof. destruct s; cbn; tauto. Qed.
Theorem parse_complete t gs : reads [] t gs -> exists a, parse t = (a, []) /\ forall s, value (longhands a) s = value gs s.
Proof.
  intros R. destruct (loop_complete _ _ _ R nothing nothing_used) as (f & E & F). exists (complete f). unfold parse. rewrite E. split; [reflexivity|].
  intros s. apply get_value. intros s'. rewrite F. unfold merge. now destruct s'.
Qed.
Theorem parse_sound t a : parse t = (a, []) -> exists gs, reads [] t gs.
Proof. unfold parse. destruct (parse_loop nothing t) as [f r] eqn:E. intros [= <- ->]. exact (loop_sound _ _ _ _ nothing_used E). Qed.
Theorem reads_unique t gs gs' : reads [] t gs -> reads [] t gs' -> forall s, value gs s = value gs' s.
Proof.
  intros H H' s. destruct (parse_complete _ _ H) as (a & E & F). destruct (parse_complete _ _ H') as (a' & E' & F').
  rewrite E in E'. injection E' as <-. now rewrite <- F, <- F'.
Qed.
