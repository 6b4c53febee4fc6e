(** * What is printed for an animation *)
From Coq Require Import List Bool QArith ZArith Ascii String Lia.
From Verif Require Import AnimModel AnimSpec AnimProofs.
Import ListNotations.
Local Open Scope string_scope.
Local Open Scope Q_scope.
Local Open Scope list_scope.

Definition cond {A} (b : bool) (a : A) : list A := if b then [a] else [].
Lemma cond_in {A} b (x y : A) : In x (cond b y) -> x = y.
Proof. destruct b; cbn; [intros [->|[]]; reflexivity|contradiction]. Qed.
Lemma reads_cond b used t g r gs : (b = true -> chosen used t g) -> reads (cond b (slot_of g) ++ used) r gs -> reads used (cond b t ++ r) (cond b g ++ gs).
Proof. destruct b; cbn; [|auto]. intros C R. constructor; auto. Qed.
Lemma value_cond b g r s : value (cond b g ++ r) s = if slot_eqb (slot_of g) s then (if b then g else value r s) else value r s.
Proof. destruct b; cbn; [reflexivity|]. now destruct (slot_eqb _ _). Qed.

(** ** Easing functions *)
Definition easing_given (e : easing) : curve :=
  match print_easing e with TIdent s => match find (fun p => String.eqb (fst p) s) easing_table with Some p => snd p | None => Straight end | TEasing e => curve_of e | _ => Straight end.
Lemma curve_refl c : curve_eq c c.
Proof. destruct c; cbn; auto; repeat split; reflexivity. Qed.
Lemma bezier_eqb_iff e a b c d : bezier_eqb e a b c d = true -> curve_eq (Bezier a b c d) (curve_of e).
Proof.
  destruct e; cbn; try discriminate. rewrite !andb_true_iff. intros [[[H1 H2] H3] H4]. repeat split; symmetry; now apply Qeq_bool_eq.
Qed.
Lemma curve_trans a b c : curve_eq a b -> curve_eq b c -> curve_eq a c.
Proof.
  destruct a, b, c; cbn; try tauto.
  - intros (-> & -> & -> & ->). auto.
  - intros [-> ->]. auto.
Qed.
Lemma curve_sym a b : curve_eq a b -> curve_eq b a.
Proof. destruct a, b; cbn; try tauto; [intros (H1 & H2 & H3 & H4); repeat split; symmetry; assumption|intros [-> ->]; auto]. Qed.
Lemma print_easing_valid e : valid (print_easing e) (GTiming (easing_given e)) /\ curve_eq (easing_given e) (curve_of e).
Proof.
  assert (forall kw c, print_easing e = TIdent kw -> find (fun p => String.eqb (fst p) kw) easing_table = Some (kw, c) -> lower kw = kw -> curve_eq c (curve_of e) ->
    valid (print_easing e) (GTiming (easing_given e)) /\ curve_eq (easing_given e) (curve_of e)) as K.
  { intros kw c P F L C. unfold easing_given. rewrite P, F. split; [|exact C]. apply VEasingKw. rewrite L. now apply find_some in F. }
  destruct e; try (eapply K; [reflexivity|reflexivity|reflexivity|apply curve_refl]).
  - unfold print_easing in *. cbn [is_ease] in *.
    destruct (bezier_eqb _ (1 # 4) (1 # 10) (1 # 4) 1) eqn:E1; [eapply K; [reflexivity|reflexivity|reflexivity|apply bezier_eqb_iff in E1; eapply curve_trans; [|exact E1]; repeat split; reflexivity]|].
    destruct (bezier_eqb _ (42 # 100) 0 1 1) eqn:E2; [eapply K; [reflexivity|reflexivity|reflexivity|apply bezier_eqb_iff in E2; eapply curve_trans; [|exact E2]; repeat split; reflexivity]|].
    destruct (bezier_eqb _ 0 0 (58 # 100) 1) eqn:E3; [eapply K; [reflexivity|reflexivity|reflexivity|apply bezier_eqb_iff in E3; eapply curve_trans; [|exact E3]; repeat split; reflexivity]|].
    destruct (bezier_eqb _ (42 # 100) 0 (58 # 100) 1) eqn:E4; [eapply K; [reflexivity|reflexivity|reflexivity|apply bezier_eqb_iff in E4; eapply curve_trans; [|exact E4]; repeat split; reflexivity]|].
    unfold easing_given, print_easing. cbn [is_ease]. rewrite E1, E2, E3, E4. split; [apply VEasing|apply curve_refl].
  - assert (print_easing (Steps count p) = TEasing (Steps count p) \/ (count = 1%Z /\ (p = Start \/ p = End))) as [P|[-> [->| ->]]].
    { unfold print_easing. cbn. destruct count as [|[]|]; auto. destruct p; auto. }
    + unfold easing_given. rewrite P. split; [apply VEasing|apply curve_refl].
    + eapply K; [reflexivity|reflexivity|reflexivity|apply curve_refl].
    + eapply K; [reflexivity|reflexivity|reflexivity|apply curve_refl].
Qed.
Lemma is_ease_iff e : is_ease e = true <-> curve_eq (curve_of e) (Bezier 0.25 0.1 0.25 1).
Proof.
  destruct e; cbn [is_ease bezier_eqb curve_of curve_eq]; split; try discriminate; try tauto.
  - intros _. repeat split; reflexivity.
  - intros (H & _). discriminate H.
  - intros (H & _). discriminate H.
  - intros (H & _). discriminate H.
  - rewrite !andb_true_iff. intros [[[H1 H2] H3] H4]. apply Qeq_bool_eq in H1, H2, H3, H4. rewrite H1, H2, H3, H4. repeat split; reflexivity.
  - intros (H1 & H2 & H3 & H4). rewrite !andb_true_iff, !Qeq_bool_iff, H1, H2, H3, H4. repeat split; reflexivity.
Qed.

(** ** The tokens before the name *)
Lemma chosen_plain used t g : valid t g -> ~ In (slot_of g) used -> slot_of g <> SName -> slot_of g <> STimeline -> (slot_of g = SDelay -> In SDuration used) -> chosen used t g.
Proof.
  intros V N N1 N2 D. split; [assumption|]. split; [assumption|]. intros g' V' P. inversion P as [E1 E2|s H1 H2 E1 E2|s H1 E1 E2].
  - apply D. now rewrite <- E2.
  - congruence.
  - congruence.
Qed.

Section Printed.
Variable a : animation.
Variable s : string.
Definition b_duration := negb (is_zero (a_duration a)) || negb (is_zero (a_delay a)).
Definition b_timing := negb (is_ease (a_timing a)) || easing_ident s.
Definition b_delay := negb (is_zero (a_delay a)).
Definition b_count := negb (default_count (a_count a)) || String.eqb s "infinite".
Definition b_direction := negb (match a_direction a with Normal => true | _ => false end) || some (keyword direction_keywords s).
Definition b_fill := negb (match a_fill a with FillNone => true | _ => false end) || (negb (is_kw "none" s) && some (keyword fill_keywords s)).
Definition b_play := negb (match a_play a with Running => true | _ => false end) || some (keyword play_keywords s).
Definition used : list slot :=
  cond b_play SPlay ++ cond b_fill SFill ++ cond b_direction SDirection ++ cond b_count SCount ++ cond b_delay SDelay ++ cond b_timing STiming ++ cond b_duration SDuration ++ [].
Definition count_given := GCount match a_count a with Number q => Some q | Infinite => None end.
Definition before : list given :=
  cond b_duration (GDuration (a_duration a)) ++ cond b_timing (GTiming (easing_given (a_timing a))) ++ cond b_delay (GDelay (a_delay a)) ++ cond b_count count_given
  ++ cond b_direction (GDirection (a_direction a)) ++ cond b_fill (GFill (a_fill a)) ++ cond b_play (GPlay (a_play a)).

Ltac fresh_slot := cbn [slot_of]; rewrite ?in_app_iff; let H := fresh in intros H; repeat (destruct H as [H|H]; [apply cond_in in H; discriminate|]); (contradiction || (apply cond_in in H; discriminate)).
Lemma before_reads r gs : reads used r gs -> reads [] (print_before s a ++ r) (before ++ gs).
Proof.
  intros R. unfold print_before, before. rewrite <- !app_assoc.
  change (reads [] (cond b_duration (TTime (a_duration a)) ++ cond b_timing (print_easing (a_timing a)) ++ cond b_delay (TTime (a_delay a)) ++ cond b_count (print_count (a_count a))
    ++ cond b_direction (print_direction (a_direction a)) ++ cond b_fill (print_fill (a_fill a)) ++ cond b_play (print_play (a_play a)) ++ r)
    (cond b_duration (GDuration (a_duration a)) ++ cond b_timing (GTiming (easing_given (a_timing a))) ++ cond b_delay (GDelay (a_delay a)) ++ cond b_count count_given
    ++ cond b_direction (GDirection (a_direction a)) ++ cond b_fill (GFill (a_fill a)) ++ cond b_play (GPlay (a_play a)) ++ gs)).
  apply reads_cond.
  { intros _. apply chosen_plain; try discriminate; [constructor|intros []]. }
  apply reads_cond.
  { intros _. apply chosen_plain; try discriminate; [apply print_easing_valid|fresh_slot]. }
  apply reads_cond.
  { intros B. apply chosen_plain; try discriminate; [constructor|fresh_slot|]. intros _. rewrite !in_app_iff. right. left.
    unfold b_delay in B. unfold b_duration. rewrite B, orb_true_r. left. reflexivity. }
  apply reads_cond.
  { intros _. apply chosen_plain; try discriminate; [|fresh_slot]. unfold count_given. destruct (a_count a); constructor. reflexivity. }
  apply reads_cond.
  { intros _. apply chosen_plain; try discriminate; [|fresh_slot]. constructor. destruct (a_direction a); cbn; tauto. }
  apply reads_cond.
  { intros _. apply chosen_plain; try discriminate; [|fresh_slot]. constructor. destruct (a_fill a); cbn; tauto. }
  apply reads_cond.
  { intros _. apply chosen_plain; try discriminate; [|fresh_slot]. constructor. destruct (a_play a); cbn; tauto. }
  exact R.
Qed.

(** ** The name *)
Hypothesis easing_ok : In (lower s) (map fst easing_table) -> lower s = s \/ ~ curve_eq (curve_of (a_timing a)) (Bezier 0.25 0.1 0.25 1).
Hypothesis infinite_ok : lower s = "infinite" -> lower s = s \/ ~ match a_count a with Number q => q == 1 | Infinite => False end.
Lemma some_keyword {A} (table : list (string * A)) x : In (lower s, x) table -> some (keyword table s) = true.
Proof.
  induction table as [|[kw b] r IH]; cbn; [contradiction|]. destruct (is_kw kw s) eqn:E; [reflexivity|]. intros [H|H]; [|auto].
  injection H as -> _. unfold is_kw in E. now rewrite String.eqb_refl in E.
Qed.
Lemma name_chosen : ~ In (lower s) ["none"; "initial"; "inherit"; "unset"; "default"; "revert"; "revert-layer"] -> chosen used (TIdent s) (GName (Some s)).
Proof.
  intros Hn. split; [now constructor|]. split; [unfold used; fresh_slot|].
  assert (lower s <> "none") as Hnone by (intros E; apply Hn; rewrite E; left; reflexivity).
  intros g V P. unfold used. rewrite !in_app_iff. inversion V as [q E|q E|e E|x c H E|q E|x H E|x d H E|x f H E|x p H E|x H E|x H E|x E|x H E|x H E|x H E|n E]; subst; cbn [slot_of] in P; cbn [slot_of].
  - do 5 right. left. assert (b_timing = true) as ->; [|left; reflexivity]. unfold b_timing. destruct (is_ease (a_timing a)) eqn:Ee; [|reflexivity]. cbn [negb orb].
    apply is_ease_iff in Ee. assert (In (lower s) (map fst easing_table)) as I by (apply in_map_iff; exists (lower s, c); auto).
    destruct (easing_ok I) as [L|L]; [|contradiction]. unfold easing_ident. apply existsb_exists. exists (lower s). split; [exact I|]. rewrite L. apply String.eqb_refl.
  - do 3 right. left. assert (b_count = true) as ->; [|left; reflexivity]. unfold b_count. destruct (default_count (a_count a)) eqn:D; [|reflexivity]. cbn [negb orb].
    destruct (infinite_ok H) as [L|L]; [rewrite <- L, H; reflexivity|]. exfalso. apply L. destruct (a_count a); cbn in D; [now apply Qeq_bool_eq|discriminate].
  - do 2 right. left. assert (b_direction = true) as ->; [|left; reflexivity]. unfold b_direction. rewrite (some_keyword direction_keywords d H). apply orb_true_r.
  - right. left. assert (b_fill = true) as ->; [|left; reflexivity]. unfold b_fill. rewrite (some_keyword fill_keywords f H).
    assert (is_kw "none" s = false) as ->; [|apply orb_true_r]. destruct (is_kw "none" s) eqn:K; [|reflexivity]. apply is_kw_iff in K. contradiction.
  - left. assert (b_play = true) as ->; [|left; reflexivity]. unfold b_play. rewrite (some_keyword play_keywords p H). apply orb_true_r.
  - contradiction.
  - inversion P; congruence.
  - inversion P; congruence.
  - inversion P; congruence.
  - inversion P; congruence.
Qed.
Lemma string_chosen : chosen used (TString s) (GName (Some s)).
Proof.
  split; [constructor|]. split; [unfold used; fresh_slot|]. intros g V P. inversion V; subst. cbn [slot_of] in P. inversion P; congruence.
Qed.

(** ** The timeline *)
Hypothesis timeline_ok : a_timeline a = NoTimeline -> a_fill a <> FillNone \/ In (lower s) ["forwards"; "backwards"; "both"].
Hypothesis dashed_ok : match a_timeline a with Dashed x => String.prefix "--" x = true | _ => True end.
Definition b_timeline := match a_timeline a with Auto => false | _ => true end.
Lemma dashed_lower x : String.prefix "--" x = true -> exists r, lower x = String "-" (String "-" r).
Proof.
  destruct x as [|c x]; [discriminate|]. intros H. assert (c = "-"%char) as -> by (destruct c as [[] [] [] [] [] [] [] []]; try discriminate H; reflexivity).
  destruct x as [|d x]; [discriminate|]. assert (d = "-"%char) as -> by (destruct d as [[] [] [] [] [] [] [] []]; try discriminate H; reflexivity).
  eexists. reflexivity.
Qed.
Lemma timeline_chosen : b_timeline = true -> chosen (SName :: used) (print_timeline (a_timeline a)) (GTimeline (a_timeline a)).
Proof.
  unfold b_timeline. intros B. split; [|split].
  - destruct (a_timeline a); constructor; reflexivity || assumption.
  - intros [H|H]; [discriminate|]. revert H. unfold used. fresh_slot.
  - intros g V P. destruct (a_timeline a) as [| |x|n] eqn:T; [discriminate B|..]; cbn [print_timeline] in V.
    + inversion V as [q E|q E|e E|y c H E|q E|y H E|y d H E|y f H E|y p H E|y H E|y H E|y E|y H E|y H E|y H E|n E]; subst; cbn [slot_of] in *.
      * cbn in H. exfalso. intuition discriminate.
      * discriminate H.
      * cbn in H. exfalso. intuition discriminate.
      * right. unfold used. rewrite !in_app_iff. right. left. assert (b_fill = true) as ->; [|left; reflexivity]. unfold b_fill.
        destruct (timeline_ok eq_refl) as [Hf|Hf]; [destruct (a_fill a); try contradiction; reflexivity|].
        assert (is_kw "none" s = false) as ->.
        { destruct (is_kw "none" s) eqn:K; [|reflexivity]. apply is_kw_iff in K. rewrite K in Hf. cbn in Hf. intuition discriminate. }
        assert (some (keyword fill_keywords s) = true) as ->; [|apply orb_true_r].
        cbn in Hf. destruct Hf as [Hf|[Hf|[Hf|[]]]]; unfold fill_keywords, keyword, is_kw; rewrite <- Hf; reflexivity.
      * cbn in H. exfalso. intuition discriminate.
      * left. reflexivity.
      * left. reflexivity.
      * inversion P; congruence.
      * inversion P; congruence.
      * inversion P; congruence.
    + destruct (dashed_lower x dashed_ok) as [r L].
      inversion V as [q E|q E|e E|y c H E|q E|y H E|y d H E|y f H E|y p H E|y H E|y H E|y E|y H E|y H E|y H E|n E]; subst; cbn [slot_of] in *; try rewrite L in H;
        try (left; reflexivity); try (inversion P; congruence); cbn in H; exfalso; intuition discriminate.
    + inversion V; subst. cbn [slot_of] in P. inversion P; congruence.
Qed.
End Printed.

Lemma default_count_iff c : default_count c = true -> given_eq (GCount (Some 1)) (GCount match c with Number q => Some q | Infinite => None end).
Proof. destruct c; cbn; [|discriminate]. intros H. symmetry. now apply Qeq_bool_eq. Qed.
Lemma given_refl g : given_eq g g.
Proof. destruct g; cbn; try reflexivity; [apply curve_refl|destruct q; reflexivity]. Qed.
Lemma given_sym g h : given_eq g h -> given_eq h g.
Proof.
  destruct g as [| | |[]| | | | |], h as [| | |[]| | | | |]; cbn; intros H; try congruence; try (now symmetry); now apply curve_sym.
Qed.
Lemma values_printed a s : let gs := before a s ++ [GName (Some s)] ++ cond (b_timeline a) (GTimeline (a_timeline a)) ++ [] in
  forall sl, given_eq (value gs sl) (value (longhands a) sl) \/ sl = SName.
Proof.
  intros gs sl. unfold gs, before. rewrite <- !app_assoc, !value_cond. change ([GName (Some s)] ++ ?r) with (cond true (GName (Some s)) ++ r). rewrite !value_cond.
  destruct sl; cbn [slot_of slot_eqb value longhands initial count_given]; [right; reflexivity|left..].
  - unfold b_duration. destruct (is_zero (a_duration a)) eqn:E; cbn [negb orb]; [|reflexivity].
    destruct (negb (is_zero (a_delay a))); [reflexivity|]. apply Qeq_bool_eq in E. cbn. now symmetry.
  - unfold b_timing. destruct (is_ease (a_timing a)) eqn:E; cbn [negb orb]; [|apply print_easing_valid].
    destruct (easing_ident s); [apply print_easing_valid|]. apply is_ease_iff in E. now apply curve_sym.
  - unfold b_count. destruct (default_count (a_count a)) eqn:E; cbn [negb orb]; [|apply given_refl].
    destruct (String.eqb s "infinite"); [apply given_refl|]. now apply default_count_iff.
  - unfold b_direction. destruct (a_direction a); cbn [negb orb]; try reflexivity. now destruct (some _).
  - unfold b_play. destruct (a_play a); cbn [negb orb]; try reflexivity. now destruct (some _).
  - unfold b_delay. destruct (is_zero (a_delay a)) eqn:E; cbn [negb]; [|reflexivity]. apply Qeq_bool_eq in E. cbn. now symmetry.
  - unfold b_fill. destruct (a_fill a); cbn [negb orb]; try reflexivity. now destruct (_ && _).
  - unfold b_timeline. now destruct (a_timeline a).
Qed.

Lemma print_reads a : proper a -> fine a -> exists gs, reads [] (print a) gs /\ forall s, given_eq (value gs s) (value (longhands a) s).
Proof.
  intros [P1 P2] F. unfold print, fine in *. destruct (a_name a) as [|s|s] eqn:N.
  - exists [GFill FillNone]. split.
    + cbn [app andb]. constructor; [|constructor]. apply chosen_plain; try discriminate; [|intros []]. constructor. cbn. auto.
    + intros s. specialize (F s). assert (forall x, given_eq (value [] s) x -> given_eq (value [GFill FillNone] s) x) as K by (intros x; destruct s; auto).
      apply K. now apply given_sym.
  - destruct F as (F1 & F2 & F3). cbn [andb]. exists (before a s ++ [GName (Some s)] ++ cond (b_timeline a) (GTimeline (a_timeline a)) ++ []). split.
    + apply before_reads. constructor; [apply name_chosen; assumption|].
      assert ((if match a_timeline a with Auto => false | _ => true end then [print_timeline (a_timeline a)] else []) = cond (b_timeline a) (print_timeline (a_timeline a)) ++ []) as ->
        by (unfold b_timeline; destruct (a_timeline a); reflexivity).
      apply reads_cond; [|constructor]. intros B. apply timeline_chosen; auto. 
    + intros sl. destruct (values_printed a s sl) as [V| ->]; [exact V|]. unfold before. rewrite <- !app_assoc, !value_cond. cbn. now rewrite N.
  - destruct F as (F1 & F2 & F3). cbn [andb]. exists (before a s ++ [GName (Some s)] ++ cond (b_timeline a) (GTimeline (a_timeline a)) ++ []). split.
    + apply before_reads. constructor.
      { cbn [print_name]. destruct (is_kw "none" s || reserved s) eqn:K; [apply string_chosen|]. apply name_chosen; try assumption.
        rewrite <- reserved_iff. apply orb_false_iff in K as [-> ->]. intros [X|X]; discriminate. }
      assert ((if match a_timeline a with Auto => false | _ => true end then [print_timeline (a_timeline a)] else []) = cond (b_timeline a) (print_timeline (a_timeline a)) ++ []) as ->
        by (unfold b_timeline; destruct (a_timeline a); reflexivity).
      apply reads_cond; [|constructor]. intros B. apply timeline_chosen; auto.
    + intros sl. destruct (values_printed a s sl) as [V| ->]; [exact V|]. unfold before. rewrite <- !app_assoc, !value_cond. cbn. now rewrite N.
Qed.

(** ** What is parsed *)
Definition proper_found (f : found) : Prop :=
  match f_name f with
  | Some (Ident s) => ~ In (lower s) ["none"; "initial"; "inherit"; "unset"; "default"; "revert"; "revert-layer"]
  | Some (Str s) => s <> ""
  | _ => True
  end /\ match f_timeline f with Some (Dashed s) => String.prefix "--" s = true | _ => True end.
Lemma as_name_proper t n : t <> TString "" -> as_name t = Some n ->
  match n with Ident s => ~ In (lower s) ["none"; "initial"; "inherit"; "unset"; "default"; "revert"; "revert-layer"] | Str s => s <> "" | NoName => True end.
Proof.
  destruct t as [| | | |s|s|]; cbn [as_name]; try discriminate.
  - intros _. destruct (is_kw "none" s) eqn:K; [intros [= <-]; exact I|]. destruct (reserved s) eqn:R; [discriminate|]. intros [= <-].
    rewrite <- reserved_iff, K, R. intros [X|X]; discriminate.
  - intros H [= <-] ->. now apply H.
Qed.
Lemma as_timeline_proper t x : as_timeline t = Some x -> match x with Dashed s => String.prefix "--" s = true | _ => True end.
Proof.
  destruct t as [| | | |s|s|]; cbn [as_timeline]; try discriminate; [intros [= <-]; exact I|].
  destruct (is_kw "auto" s); [intros [= <-]; exact I|]. destruct (is_kw "none" s); [intros [= <-]; exact I|]. destruct (dashed s) eqn:D; [|discriminate]. intros [= <-]. exact D.
Qed.
Lemma parse_prop_cases {A} (v a : option A) set next f : parse_prop v a set next = Some f -> (exists x, a = Some x /\ set (Some x) = f) \/ next = Some f.
Proof. destruct v, a; cbn; auto. intros [= <-]. left. eauto. Qed.
Lemma step_proper f t f' : proper_found f -> t <> TString "" -> step f t = Some f' -> proper_found f'.
Proof.
  intros [P1 P2] N. destruct f as [n d e c di p de fi ti]. cbn [step f_name f_timeline] in *.
  do 7 (intros H; apply parse_prop_cases in H as [(x & _ & <-)|H]; [split; assumption|]; revert H).
  intros H. apply parse_prop_cases in H as [(x & E & <-)|H].
  { split; cbn [f_name f_timeline]; [|assumption]. pose proof (as_name_proper t x N E). now destruct x. }
  apply parse_prop_cases in H as [(x & E & <-)|H]; [|discriminate]. split; cbn [f_name f_timeline]; [assumption|]. apply as_timeline_proper in E. now destruct x.
Qed.
Lemma loop_proper t : Forall (fun t => t <> TString "") t -> forall f f' r, proper_found f -> parse_loop f t = (f', r) -> proper_found f'.
Proof.
  induction 1 as [|t l N _ IH]; intros f f' r P; cbn [parse_loop]; [intros [= <- _]; exact P|].
  destruct (step f t) eqn:S; [|intros [= <- _]; exact P]. intros H. eapply IH; [|exact H]. eapply step_proper; eauto.
Qed.
Lemma parse_proper t a r : Forall (fun t => t <> TString "") t -> parse t = (a, r) -> proper a.
Proof.
  unfold parse. intros N. destruct (parse_loop nothing t) as [f r'] eqn:L. intros [= <- <-].
  apply loop_proper in L; [|assumption|now split]. destruct L as [L1 L2]. unfold proper, complete. cbn [a_name a_timeline].
  destruct (f_name f) as [[]|], (f_timeline f) as [[]|]; split; cbn [get]; auto.
Qed.

(** ** Reading what was printed for what was read *)
Lemma given_trans g h i : given_eq g h -> given_eq h i -> given_eq g i.
Proof.
  destruct g as [| | |[]| | | | |], h as [| | |[]| | | | |]; cbn; intros H; try discriminate H; destruct i as [| | |[]| | | | |]; cbn; intros K; try congruence;
    try (now rewrite H); now apply curve_trans with c0.
Qed.
Lemma printed_values t gs a : Forall (fun t => t <> TString "") t -> reads [] t gs -> parse t = (a, []) -> fine a ->
  exists gs', reads [] (print a) gs' /\ same_values gs gs'.
Proof.
  intros N R P F. destruct (print_reads a (parse_proper t a [] N P) F) as (gs' & R' & V). exists gs'. split; [exact R'|]. intros s.
  destruct (parse_complete t gs R) as (a' & P' & V'). rewrite P in P'. injection P' as <-. rewrite <- V'. now apply given_sym.
Qed.
Lemma print_nonempty a : print a <> [].
Proof. unfold print. destruct (a_name a); [discriminate|..]; intros H; apply app_eq_nil in H as [_ H]; discriminate. Qed.

Lemma parse_reads t a : parse t = (a, []) -> exists gs, reads [] t gs /\ forall s, value gs s = value (longhands a) s.
Proof.
  intros P. destruct (parse_sound t a P) as [gs R]. exists gs. split; [exact R|]. intros s. destruct (parse_complete t gs R) as (a' & P' & V).
  rewrite P in P'. injection P' as <-. now rewrite V.
Qed.
Lemma written t gs a : Forall (fun t => t <> TString "") t -> shorthand t gs -> parse t = (a, []) -> fine a ->
  (exists gs', shorthand (print a) gs') /\ forall gs', shorthand (print a) gs' -> same_values gs gs'.
Proof.
  intros N [E R] P F. destruct (printed_values t gs a N R P F) as (gs' & R' & V). split.
  - exists gs'. split; [apply print_nonempty|exact R'].
  - intros gs'' [_ R''] s. rewrite (reads_unique _ _ _ R'' R' s). apply V.
Qed.
Lemma changed t a a' s : t <> [] -> parse t = (a, []) -> parse (print a) = (a', []) -> ~ given_eq (value (longhands a) s) (value (longhands a') s) ->
  exists gs gs', shorthand t gs /\ parse t = (a, []) /\ shorthand (print a) gs' /\ ~ given_eq (value gs s) (value gs' s).
Proof.
  intros E P P' N. destruct (parse_reads t a P) as (gs & R & V). destruct (parse_reads _ _ P') as (gs' & R' & V'). exists gs, gs'.
  split; [split; assumption|]. split; [exact P|]. split; [split; [apply print_nonempty|exact R']|]. now rewrite V, V'.
Qed.
Lemma name_case : exists t a gs gs', shorthand t gs /\ parse t = (a, []) /\ shorthand (print a) gs' /\ ~ given_eq (value gs SName) (value gs' SName).
Proof.
  exists [TIdent "ease"; TIdent "EASE"; TTime 1], (Animation (Ident "EASE") 1 Ease (Number 1) Normal Running 0 FillNone Auto).
  eapply changed; [discriminate|reflexivity|reflexivity|]. cbn. discriminate.
Qed.
Lemma count_case : exists t a gs gs', shorthand t gs /\ parse t = (a, []) /\ shorthand (print a) gs' /\ ~ given_eq (value gs SCount) (value gs' SCount).
Proof.
  exists [TString "Infinite"; TTime 1], (Animation (Str "Infinite") 1 Ease (Number 1) Normal Running 0 FillNone Auto).
  eapply changed; [discriminate|reflexivity|reflexivity|]. cbn. discriminate.
Qed.
Lemma timeline_lost : exists t a gs gs', shorthand t gs /\ parse t = (a, []) /\ shorthand (print a) gs' /\ ~ given_eq (value gs STimeline) (value gs' STimeline).
Proof.
  exists [TIdent "none"; TIdent "foo"; TIdent "none"], (Animation (Ident "foo") 0 Ease (Number 1) Normal Running 0 FillNone NoTimeline).
  eapply changed; [discriminate|reflexivity|reflexivity|]. cbn. discriminate.
Qed.
Lemma nameless : exists t a gs gs', shorthand t gs /\ parse t = (a, []) /\ shorthand (print a) gs' /\ ~ given_eq (value gs SDuration) (value gs' SDuration).
Proof.
  exists [TTime 1], (Animation NoName 1 Ease (Number 1) Normal Running 0 FillNone Auto).
  eapply changed; [discriminate|reflexivity|reflexivity|]. cbn. discriminate.
Qed.
