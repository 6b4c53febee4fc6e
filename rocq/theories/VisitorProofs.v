From Coq Require Import List Bool Arith NArith Lia.
From Verif Require Import VisitorModel VisitorSpec.
Import ListNotations.

Section Map.
Variables (S V : Type).
Implicit Types (f : S -> V -> call S V) (s : S) (l p : list V) (x v : V).

Lemma nth_error_mid : forall p x l, nth_error (p ++ x :: l) (List.length p) = Some x.
Proof. intros p x l. rewrite nth_error_app2 by lia. now rewrite Nat.sub_diag. Qed.
Lemma firstn_mid : forall p l, firstn (List.length p) (p ++ l) = p.
Proof. intros p l. rewrite firstn_app, Nat.sub_diag, firstn_all. cbn. apply app_nil_r. Qed.
Lemma skipn_mid : forall p x l, skipn (1 + List.length p) (p ++ x :: l) = l.
Proof.
  intros p x l. replace (p ++ x :: l) with ((p ++ [x]) ++ l) by (rewrite <- app_assoc; reflexivity).
  replace (1 + List.length p) with (List.length (p ++ [x])) by (rewrite app_length; cbn; lia).
  rewrite skipn_app, Nat.sub_diag, skipn_all. reflexivity.
Qed.
Lemma set_nth_mid : forall p x v l, set_nth V (List.length p) v (p ++ x :: l) = p ++ v :: l.
Proof. intros. unfold set_nth. now rewrite firstn_mid, skipn_mid. Qed.
Lemma vec_replace_mid : forall p x items l,
    lo_replace _ (vec_ops V) (List.length p) items (p ++ x :: l) = p ++ items ++ l.
Proof. intros. cbn [lo_replace vec_ops]. now rewrite firstn_mid, skipn_mid. Qed.
Lemma small_replace_mid : forall p x items l, items <> [] ->
    lo_replace _ (smallvec_ops V) (List.length p) items (p ++ x :: l) = p ++ items ++ l.
Proof.
  intros p x [|y items] l H; [congruence|]. cbn [lo_replace smallvec_ops]. rewrite set_nth_mid.
  destruct (Nat.ltb_spec 1 (List.length (y :: items))) as [L|L].
  - replace (p ++ y :: l) with ((p ++ [y]) ++ l) by (rewrite <- app_assoc; reflexivity).
    replace (List.length p + 1) with (List.length (p ++ [y])) by (rewrite app_length; cbn; lia).
    rewrite firstn_mid, skipn_app, Nat.sub_diag, skipn_all. cbn. rewrite <- !app_assoc. reflexivity.
  - destruct items; [reflexivity|]. cbn in L. lia.
Qed.

(** Prefix an outcome's list *)
Definition under p (o : outcome S V) : outcome S V :=
  match o with Done s l => Done s (p ++ l) | Failed s l => Failed s (p ++ l) | OutOfFuel => OutOfFuel end.

(** list kinds that behave like a sequence *)
Definition seq_ops (ops : list_ops V) : Prop :=
  (forall p x l, lo_remove _ ops (List.length p) (p ++ x :: l) = p ++ l)
  /\ (forall p x items l, items <> [] ->
        lo_replace _ ops (List.length p) items (p ++ x :: l) = p ++ items ++ l).

Lemma vec_seq : seq_ops (vec_ops V).
Proof.
  split; intros.
  - cbn [lo_remove vec_ops]. now rewrite firstn_mid, skipn_mid.
  - apply vec_replace_mid.
Qed.
Lemma small_seq : seq_ops (smallvec_ops V).
Proof.
  split; intros.
  - cbn [lo_remove smallvec_ops]. now rewrite firstn_mid, skipn_mid.
  - now apply small_replace_mid.
Qed.

Lemma under_under : forall p q o, under p (under q o) = under (p ++ q) o.
Proof. intros p q []; cbn; rewrite ?app_assoc; reflexivity. Qed.

Lemma map_loop_seq : forall ops f, seq_ops ops -> forall l n s p,
    List.length l < n ->
    map_loop S V ops f n s (p ++ l) (List.length p) = under p (visit_each f s l).
Proof.
  intros ops f [Hrem Hrep]. induction l as [|x l IH]; intros n s p Hn;
    (destruct n as [|n]; [cbn in Hn; lia|]); cbn [map_loop].
  - rewrite app_nil_r, (proj2 (nth_error_None _ _)) by lia. cbn. now rewrite app_nil_r.
  - rewrite nth_error_mid. cbn [visit_each]. cbn in Hn.
    destruct (f s x) as [s' x' o|s' x']; [|cbn; now rewrite set_nth_mid].
    rewrite set_nth_mid.
    assert (step : forall out, out <> [] ->
      map_loop S V ops f n s' (p ++ out ++ l) (List.length p + List.length out)
      = under p (match visit_each f s' l with
                 | Done s'' r' => Done s'' (out ++ r')
                 | Failed s'' r' => Failed s'' (out ++ r')
                 | OutOfFuel => OutOfFuel end)).
    { intros out _. rewrite app_assoc, <- app_length, IH by lia.
      rewrite <- under_under. destruct (visit_each f s' l); reflexivity. }
    destruct o as [[v|vec]|]; cbn [expand].
    + rewrite set_nth_mid. apply (step [v]). discriminate.
    + destruct vec as [|y vec].
      * rewrite Hrem, IH by lia. destruct (visit_each f s' l); reflexivity.
      * rewrite Hrep by discriminate. apply (step (y :: vec)). discriminate.
    + apply (step [x']). discriminate.
Qed.

Theorem map_list_seq : forall ops f s l, seq_ops ops -> map_list S V ops f s l = visit_each f s l.
Proof.
  intros ops f s l H. unfold map_list.
  etransitivity; [refine (map_loop_seq ops f H l (1 + 2 * List.length l) s [] _); lia|].
  destruct (visit_each f s l); reflexivity.
Qed.

(** For rule lists a deleted rule becomes a placeholder. *)
Definition keep_placeholder (ig : V) (r : option (value_or_vec V)) :=
  match r with Some (Vec []) => Some (Value ig) | _ => r end.
Definition placeholding (ig : V) f : S -> V -> call S V :=
  fun s x => match f s x with
             | CallOk s' x' r => CallOk s' x' (keep_placeholder ig r)
             | CallErr s' x' => CallErr s' x'
             end.

Lemma map_loop_rules : forall ig f, (forall s, f s ig = CallOk s ig None) -> forall l n s p,
    2 * List.length l < n ->
    map_loop S V (rules_ops V ig) f n s (p ++ l) (List.length p)
    = under p (visit_each (placeholding ig f) s l).
Proof.
  intros ig f Hig. induction l as [|x l IH]; intros n s p Hn;
    (destruct n as [|n]; [cbn in Hn; lia|]); cbn [map_loop].
  - rewrite app_nil_r, (proj2 (nth_error_None _ _)) by lia. cbn. now rewrite app_nil_r.
  - rewrite nth_error_mid. cbn [visit_each]. cbn in Hn. unfold placeholding at 1.
    destruct (f s x) as [s' x' o|s' x'] eqn:E; [|cbn; now rewrite set_nth_mid].
    rewrite set_nth_mid.
    assert (step : forall m out, 2 * List.length l < m ->
      map_loop S V (rules_ops V ig) f m s' (p ++ out ++ l) (List.length p + List.length out)
      = under p (match visit_each (placeholding ig f) s' l with
                 | Done s'' r' => Done s'' (out ++ r')
                 | Failed s'' r' => Failed s'' (out ++ r')
                 | OutOfFuel => OutOfFuel end)).
    { intros m out Hm. rewrite app_assoc, <- app_length, IH by lia.
      rewrite <- under_under. destruct (visit_each _ s' l); reflexivity. }
    destruct o as [[v|vec]|]; cbn [expand keep_placeholder].
    + rewrite set_nth_mid. apply (step n [v]). lia.
    + destruct vec as [|y vec].
      * cbn [lo_remove rules_ops]. rewrite set_nth_mid. destruct n as [|n]; [lia|].
        cbn [map_loop]. rewrite nth_error_mid, Hig, set_nth_mid. cbn [expand].
        apply (step n [ig]). lia.
      * cbn [lo_replace rules_ops]. rewrite vec_replace_mid. apply (step n (y :: vec)). lia.
    + apply (step n [x']). lia.
Qed.

Theorem map_list_rules : forall ig f s l, (forall s, f s ig = CallOk s ig None) ->
    map_list S V (rules_ops V ig) f s l = visit_each (placeholding ig f) s l.
Proof.
  intros ig f s l H. unfold map_list.
  etransitivity; [refine (map_loop_rules ig f H l (1 + 2 * List.length l) s [] _); lia|].
  destruct (visit_each _ s l); reflexivity.
Qed.

(** Dropping the placeholders of a rule list gives what the plain list would give. *)
Lemma rules_drop : forall is_ig ig f, is_ig ig = true -> forall l s,
    drop_out S V is_ig (visit_each (placeholding ig f) s l) = drop_out S V is_ig (visit_each f s l).
Proof.
  intros is_ig ig f Hig. induction l as [|x l IH]; intros s; [reflexivity|].
  cbn [visit_each]. unfold placeholding at 1. destruct (f s x) as [s' x' o|s' x']; [|reflexivity].
  assert (E : filter (fun x => negb (is_ig x)) (expand x' (keep_placeholder ig o))
              = filter (fun x => negb (is_ig x)) (expand x' o)).
  { destruct o as [[v|[|y vec]]|]; try reflexivity. cbn. now rewrite Hig. }
  specialize (IH s'). destruct (visit_each (placeholding ig f) s' l), (visit_each f s' l);
    cbn in IH |- *; try congruence; inversion IH; subst; rewrite !filter_app, E; congruence.
Qed.

Lemma visit_each_total : forall f l s, visit_each f s l <> OutOfFuel.
Proof.
  intros f. induction l as [|x l IH]; intros s; cbn; [discriminate|].
  destruct (f s x); [|discriminate]. specialize (IH s0). destruct (visit_each f s0 l); congruence.
Qed.
End Map.

(** ** Recording, pure visitors *)
Lemma visit_each_recording : forall V (g : V -> option (value_or_vec V)) l log,
    visit_each (recording g) log l = Done (rev l ++ log) (flat_map (fun x => expand x (g x)) l).
Proof.
  intros V g. induction l as [|x l IH]; intros log; cbn; [reflexivity|].
  rewrite IH, <- app_assoc. reflexivity.
Qed.

Section Stage.
Variable V : Type.
Variables (enter exit : V -> option (value_or_vec V)) (children : V -> V).
Notation log_visit := (log_visit V enter exit).
Notation log_children := (log_children V children).
Notation calls_of := (calls_of V enter children).
Notation CChildren := (CChildren V).
Notation CExit := (CExit V).
Lemma visit_item_log : forall log x, exists kept r,
    visit_item _ V log_visit log_children log x = CallOk (rev (calls_of x) ++ log) kept r
    /\ expand kept r = visited enter exit children x.
Proof.
  intros log x. unfold visit_item, calls_of, visited. cbn [log_visit].
  destruct (enter x) as [[v|vs]|]; cbn [expand].
  - cbn. do 2 eexists. split; [reflexivity|]. unfold leave.
    destruct (exit (children v)) as [[]|]; cbn; rewrite ?app_nil_r; reflexivity.
  - rewrite map_list_seq by apply vec_seq.
    match goal with |- context [visit_each ?f _ _] => set (g := f) end.
    assert (H : forall vs log, visit_each g log vs
       = Done (rev (flat_map (fun y => [CChildren y; CExit (children y)]) vs) ++ log)
              (flat_map (leave V exit children) vs)).
    { clear. induction vs as [|y vs IH]; intros log; [reflexivity|].
      cbn [visit_each]. unfold g at 1. cbn [log_children log_visit]. rewrite IH.
      cbn [flat_map]. rewrite rev_app_distr, <- app_assoc. reflexivity. }
    rewrite H. do 2 eexists. split; [f_equal|]; [cbn; now rewrite <- app_assoc|reflexivity].
  - cbn. do 2 eexists. split; [reflexivity|]. unfold leave. now rewrite app_nil_r.
Qed.

Theorem visit_list_pure : forall ops log l, seq_ops V ops ->
    visit_list _ V ops log_visit log_children log l
    = Done (rev (flat_map calls_of l) ++ log) (flat_map (visited enter exit children) l).
Proof.
  intros ops log l H. unfold visit_list. rewrite map_list_seq by exact H. clear H ops.
  revert log. induction l as [|x l IH]; intros log; [reflexivity|].
  cbn [visit_each]. destruct (visit_item_log log x) as (kept & r & E & Ex). rewrite E, IH, Ex.
  cbn [flat_map]. rewrite rev_app_distr, <- app_assoc. reflexivity.
Qed.
End Stage.

(** ** Bitset *)
Lemma shl1_testbit : forall w b, (b < 32)%nat ->
    negb (N.eqb (N.land w (shl1 b)) 0) = N.testbit w (N.of_nat b).
Proof.
  intros w b H. unfold shl1. rewrite Nat.mod_small by exact H.
  rewrite N.shiftl_1_l. destruct (N.testbit w (N.of_nat b)) eqn:E.
  - apply negb_true_iff. apply N.eqb_neq. intros Z.
    assert (T : N.testbit (N.land w (2 ^ N.of_nat b)) (N.of_nat b) = true)
      by (rewrite N.land_spec, E, N.pow2_bits_true; reflexivity).
    rewrite Z in T. rewrite N.bits_0 in T. discriminate.
  - apply negb_false_iff. apply N.eqb_eq. apply N.bits_inj. intros k. rewrite N.land_spec, N.bits_0.
    destruct (N.eq_dec k (N.of_nat b)) as [->|D]; [now rewrite E|].
    rewrite N.pow2_bits_false by congruence. apply andb_false_r.
Qed.
Lemma shl1_or_testbit : forall w b c, (b < 32)%nat ->
    N.testbit (N.lor w (shl1 b)) (N.of_nat c) = N.testbit w (N.of_nat c) || Nat.eqb b c.
Proof.
  intros w b c H. unfold shl1. rewrite Nat.mod_small by exact H. rewrite N.lor_spec, N.shiftl_1_l.
  f_equal. destruct (Nat.eqb_spec b c) as [->|D]; [apply N.pow2_bits_true|].
  apply N.pow2_bits_false. lia.
Qed.

(** The set fits [m] visitors *)
Definition bitset_ok (m : nat) (s : bitset) : Prop :=
  match bs_more s with
  | None => m <= 32
  | Some w => m <= 32 + 32 * List.length w
  end.

Lemma bitset_new_ok : forall m, bitset_ok m (bitset_new m).
Proof.
  intros m. unfold bitset_ok, bitset_new. cbn [bs_more].
  destruct (Nat.ltb_spec 32 m); [|assumption]. rewrite repeat_length.
  pose proof (Nat.div_mod_eq (m - 32 + 31) 32) as E.
  pose proof (Nat.mod_upper_bound (m - 32 + 31) 32 ltac:(lia)). lia.
Qed.
Lemma bitset_clear_ok : forall m s, bitset_ok m s -> bitset_ok m (bitset_clear s).
Proof. intros m [b [w|]]; unfold bitset_ok; cbn; rewrite ?map_length; auto. Qed.
Lemma update_nth_length : forall A (g : A -> A) l i, List.length (update_nth i g l) = List.length l.
Proof. induction l as [|x l IH]; intros [|i]; cbn; congruence. Qed.
Lemma bitset_set_ok : forall m s b, bitset_ok m s -> bitset_ok m (bitset_set s b).
Proof.
  intros m [b [w|]] k; unfold bitset_ok, bitset_set; cbn [bs_more bs_bits]; [|auto].
  destruct (32 <=? k); cbn; rewrite ?update_nth_length; auto.
Qed.
Lemma nth_update : forall (g : N -> N) l i j,
    nth i (update_nth j g l) 0%N
    = if (Nat.eqb i j && Nat.ltb i (List.length l))%bool then g (nth i l 0%N) else nth i l 0%N.
Proof.
  intros g. induction l as [|x l IH]; intros i j.
  - rewrite andb_false_r. destruct j, i; reflexivity.
  - destruct i as [|i], j as [|j]; try reflexivity.
    cbn [update_nth nth Nat.eqb List.length]. rewrite IH. reflexivity.
Qed.
Lemma bitset_get_clear : forall s b, bitset_get (bitset_clear s) b = false.
Proof.
  intros [w [m|]] b; unfold bitset_get, bitset_clear; cbn [bs_more bs_bits option_map].
  - destruct (32 <=? b); [|reflexivity].
    replace (nth ((b - 32) / 32) (map (fun _ => 0%N) m) 0%N) with 0%N; [reflexivity|].
    symmetry. change 0%N with ((fun _ : N => 0%N) 0%N) at 2. now rewrite map_nth.
  - reflexivity.
Qed.
Lemma bitset_get_set : forall m s b c, bitset_ok m s -> b < m -> c < m ->
    bitset_get (bitset_set s b) c = bitset_get s c || Nat.eqb b c.
Proof.
  intros m [w [more|]] b c Hok Hb Hc; unfold bitset_ok, bitset_get, bitset_set in *; cbn [bs_more bs_bits] in *.
  - assert (Mb : forall k, k mod 32 < 32) by (intro; apply Nat.mod_upper_bound; lia).
    destruct (Nat.leb_spec 32 b) as [B|B]; cbn [bs_more bs_bits];
      destruct (Nat.leb_spec 32 c) as [C|C].
    + rewrite !shl1_testbit by apply Mb. rewrite nth_update.
      pose proof (Nat.div_mod_eq (b - 32) 32) as Eb. pose proof (Nat.div_mod_eq (c - 32) 32) as Ec.
      pose proof (Mb (b - 32)). pose proof (Mb (c - 32)).
      assert (Rb : b mod 32 = (b - 32) mod 32)
        by (replace b with ((b - 32) + 1 * 32) at 1 by lia; apply Nat.mod_add; lia).
      assert (Rc : c mod 32 = (c - 32) mod 32)
        by (replace c with ((c - 32) + 1 * 32) at 1 by lia; apply Nat.mod_add; lia).
      destruct (Nat.eqb_spec ((c - 32) / 32) ((b - 32) / 32)) as [E|E]; cbn [andb].
      * destruct (Nat.ltb_spec ((c - 32) / 32) (List.length more)) as [L|L].
        -- rewrite shl1_or_testbit by apply Mb. f_equal. rewrite Rb, Rc.
           destruct (Nat.eqb_spec ((b - 32) mod 32) ((c - 32) mod 32)), (Nat.eqb_spec b c); congruence || lia.
        -- lia.
      * destruct (Nat.eqb_spec b c); [subst; lia|]. now rewrite orb_false_r.
    + destruct (Nat.eqb_spec b c); [lia|]. now rewrite orb_false_r.
    + destruct (Nat.eqb_spec b c); [lia|]. now rewrite orb_false_r.
    + rewrite !shl1_testbit by assumption. now apply shl1_or_testbit.
  - rewrite !shl1_testbit by lia. apply shl1_or_testbit. lia.
Qed.

(** ** Composition *)
Section Compose.
Variable V : Type.
Variable apply : list (event V) -> nat -> V -> jsres V.
Variable n : nat.
Notation step := (cstep V apply n).
Notation run := (crun V apply n).

(** number of visitors not yet seen *)
Definition unseen (s : bitset) : nat := List.length (filter (fun v => negb (bitset_get s v)) (seq 0 n)).

Lemma filter_length_lt : forall A (p q : A -> bool) l x,
    (forall y, In y l -> p y = true -> q y = true) -> In x l -> p x = false -> q x = true ->
    List.length (filter p l) < List.length (filter q l).
Proof.
  intros A p q l x Hpq Hin Hp Hq.
  assert (le : forall l', (forall y, In y l' -> p y = true -> q y = true) ->
               List.length (filter p l') <= List.length (filter q l')).
  { induction l' as [|y l' IH]; intros H; [reflexivity|]. cbn.
    specialize (IH (fun z Hz => H z (or_intror Hz))).
    pose proof (H y (or_introl eq_refl)). destruct (p y), (q y); cbn; try lia; discriminate (H0 eq_refl). }
  induction l as [|y l IH]; [contradiction|]. cbn. destruct Hin as [->|Hin].
  - rewrite Hp, Hq. cbn. specialize (le l (fun z Hz => Hpq z (or_intror Hz))). lia.
  - specialize (IH (fun z Hz => Hpq z (or_intror Hz)) Hin).
    pose proof (Hpq y (or_introl eq_refl)). destruct (p y), (q y); cbn; try lia; discriminate (H eq_refl).
Qed.

Lemma unseen_set : forall s v, bitset_ok n s -> v < n -> bitset_get s v = false ->
    unseen (bitset_set s v) < unseen s.
Proof.
  intros s v Hok Hv Hg. unfold unseen. apply filter_length_lt with (x := v).
  - intros y Hy. apply in_seq in Hy. rewrite (bitset_get_set n) by (assumption || lia).
    destruct (bitset_get s y); cbn; congruence.
  - apply in_seq. lia.
  - rewrite (bitset_get_set n) by assumption. rewrite Hg, Nat.eqb_refl. reflexivity.
  - now rewrite Hg.
Qed.

Lemma crun_ok_inv : forall st st', bitset_ok n (c_seen st) -> step st = Some st' -> bitset_ok n (c_seen st').
Proof.
  intros [arr i v seen mu h] st' Hok H. cbn in Hok, H.
  destruct (nth_error arr i) as [item|]; [|discriminate].
  destruct (n <=? v); [injection H as <-; exact Hok|].
  destruct (bitset_get seen v); [injection H as <-; exact Hok|].
  destruct (apply h v item) as [|x|[|x [|y l]]]; injection H as <-; cbn; auto using bitset_set_ok.
Qed.

(** Termination, whatever the visitors do *)
Theorem compose_terminates : forall st, bitset_ok n (c_seen st) -> exists k st', run k st = Some st'.
Proof.
  intros st. remember (unseen (c_seen st)) as u eqn:Hu. revert st Hu.
  induction u as [u IHu] using lt_wf_ind. intros st Hu.
  remember (List.length (c_arr st) - c_i st) as d eqn:Hd. revert st Hu Hd.
  induction d as [d IHd] using lt_wf_ind. intros st Hu Hd.
  remember (n - c_v st) as e eqn:He. revert st Hu Hd He.
  induction e as [e IHe] using lt_wf_ind. intros st Hu Hd He Hok.
  destruct (step st) as [st1|] eqn:E; [|exists 1, st; cbn; now rewrite E].
  assert (exists k st', run k st1 = Some st') as (k & st' & R);
    [|exists (Datatypes.S k), st'; cbn [crun]; now rewrite E].
  pose proof (crun_ok_inv st st1 Hok E) as Hok1.
  destruct st as [arr i v seen mu h]. cbn [c_arr c_i c_v c_seen c_mutated c_hist] in *.
  cbn [cstep] in E. destruct (nth_error arr i) as [item|] eqn:N; [|discriminate].
  assert (i < List.length arr) by (apply nth_error_Some; congruence).
  destruct (Nat.leb_spec n v) as [L|L].
  { injection E as <-. cbn [c_seen] in Hok1. eapply IHd; [..|exact Hok1]; cbn; try reflexivity; try assumption. lia. }
  destruct (bitset_get seen v) eqn:G.
  { injection E as <-. eapply IHe; [..|exact Hok1]; cbn; try reflexivity; try assumption. lia. }
  destruct (apply h v item) as [|x|[|x [|y l]]]; injection E as <-;
    try (eapply IHu; [..|exact Hok1]; [|reflexivity]; cbn; rewrite Hu; apply unseen_set; assumption).
  eapply IHe; [..|exact Hok1]; cbn; try reflexivity; try assumption. lia.
Qed.

(** Reachable states *)
Definition isrep (r : jsres V) : bool := match r with RNone => false | _ => true end.

Record cinv (h0 : list (event V)) (st : cstate V) : Prop := {
  iv_ok : bitset_ok n (c_seen st);
  iv_hist : exists h1, c_hist st = h1 ++ h0
    /\ (forall v, v < n -> bitset_get (c_seen st) v = true <-> replaced h1 v)
    /\ (forall v, replacements h1 v <= 1)
    /\ (c_mutated st = false <-> forall v, ~ replaced h1 v) }.

Lemma replacements_zero : forall (h : list (event V)) v, ~ replaced h v -> replacements h v = 0.
Proof.
  intros h v H. unfold replacements. match goal with |- List.length ?f = 0 => destruct f as [|e l] eqn:E end; [reflexivity|].
  exfalso. assert (H0 : In e (e :: l)) by (left; reflexivity). rewrite <- E in H0.
  apply filter_In in H0 as [Hin Hb]. destruct e as [[w x] r]. apply H. exists x, r.
  destruct r; try discriminate; apply Nat.eqb_eq in Hb; subst; split; auto; discriminate.
Qed.

Lemma cinv_step : forall h0 st st', cinv h0 st -> step st = Some st' -> cinv h0 st'.
Proof.
  intros h0 st st' [Hok (h1 & Hh & Hs & Hr & Hm)] E.
  pose proof (crun_ok_inv st st' Hok E) as Hok1.
  destruct st as [arr i v seen mu h]. cbn [c_arr c_i c_v c_seen c_mutated c_hist] in *.
  cbn [cstep] in E. destruct (nth_error arr i) as [item|] eqn:N; [|discriminate].
  destruct (Nat.leb_spec n v) as [L|L].
  { injection E as <-. split; [exact Hok1|]. exists h1. cbn. auto. }
  destruct (bitset_get seen v) eqn:G.
  { injection E as <-. split; [exact Hok1|]. exists h1. cbn. auto. }
  assert (Hrep : forall (r : jsres V) st1, isrep r = true ->
     c_seen st1 = bitset_set seen v -> c_mutated st1 = true ->
     c_hist st1 = (v, item, r) :: h -> bitset_ok n (c_seen st1) -> cinv h0 st1).
  { intros r st1 Ir Es Em Eh Ho. split; [exact Ho|]. exists ((v, item, r) :: h1). rewrite Eh, Hh.
    split; [reflexivity|]. rewrite Es. split; [|split].
    - intros w Hw. rewrite (bitset_get_set n) by assumption. rewrite orb_true_iff, Hs by exact Hw.
      unfold replaced. split.
      + intros [(x & r' & Hin & Hn)|Ew].
        * exists x, r'. split; [now right|exact Hn].
        * apply Nat.eqb_eq in Ew. subst w. exists item, r. split; [now left|]. destruct r; discriminate.
      + intros (x & r' & [Heq|Hin] & Hn).
        * injection Heq as Ew _ _. right. now apply Nat.eqb_eq.
        * left. exists x, r'. auto.
    - intros w.
      assert (F : replacements ((v, item, r) :: h1) w = (if Nat.eqb w v then 1 else 0) + replacements h1 w)
        by (unfold replacements; cbn [filter]; destruct r; try discriminate Ir;
            destruct (Nat.eqb w v); reflexivity).
      rewrite F. clear F. destruct (Nat.eqb_spec w v) as [Ew|D]; [subst w|apply Hr].
      rewrite replacements_zero; [lia|]. intros X; apply (Hs v L) in X; congruence.
    - rewrite Em. split; [discriminate|]. intros X. exfalso. apply (X v).
      exists item, r. split; [now left|]. destruct r; discriminate. }
  destruct (apply h v item) as [|x|[|x [|y l]]]; injection E as <-;
    try (eapply Hrep; cbn; try reflexivity; try exact Hok1; reflexivity).
  split; [exact Hok1|]. exists ((v, item, RNone) :: h1). cbn [c_hist c_seen c_mutated]. rewrite Hh.
  assert (X : forall w, replaced ((v, item, RNone) :: h1) w <-> replaced h1 w).
  { intros w. unfold replaced. split; intros (x & r & Hin & Hn); exists x, r.
    - destruct Hin as [Heq|Hin]; [injection Heq as _ _ <-; congruence|auto].
    - split; [now right|exact Hn]. }
  split; [reflexivity|]. split; [|split].
  - intros w Hw. rewrite X. now apply Hs.
  - intros w. apply Hr.
  - rewrite Hm. split; intros Y w; specialize (Y w); rewrite X in *; exact Y.
Qed.

Lemma crun_inv : forall (P : cstate V -> Prop),
    (forall st st', P st -> step st = Some st' -> P st') ->
    forall k st st', P st -> run k st = Some st' -> P st' /\ step st' = None.
Proof.
  intros P HP. induction k as [|k IH]; intros st st' H R; [discriminate|]. cbn in R.
  destruct (step st) as [st1|] eqn:E; [|injection R as <-; auto].
  eapply IH; [|exact R]. eapply HP; eassumption.
Qed.

Lemma cinit_inv : forall seen h arg, bitset_ok n seen -> cinv h (cinit V seen h arg).
Proof.
  intros seen h arg H. split; [apply bitset_clear_ok, H|]. exists []. cbn. repeat split.
  - now rewrite bitset_get_clear.
  - intros (x & r & [] & _).
  - intros v. unfold replacements. cbn. lia.
  - intros _ v (x & r & [] & _).
Qed.

Theorem compose_replaces_once : forall seen h arg k st,
    bitset_ok n seen -> run k (cinit V seen h arg) = Some st ->
    exists h1, c_hist st = h1 ++ h /\ (forall v, replacements h1 v <= 1)
          /\ (cresult V st = RNone <-> forall v, ~ replaced h1 v).
Proof.
  intros seen h arg k st Hok R.
  destruct (crun_inv (cinv h) (cinv_step h) k _ st (cinit_inv seen h arg Hok) R)
    as [[_ (h1 & Hh & _ & Hr & Hm)] _].
  exists h1. repeat split; auto.
  - unfold cresult. intros X. apply Hm. destruct (c_mutated st); [|reflexivity].
    destruct (c_arr st) as [|x [|y l]]; discriminate.
  - intros X. apply Hm in X. unfold cresult. now rewrite X.
Qed.

(** ** Visitors that return at most one value *)
Definition single (h0 : list (event V)) : Prop :=
  forall h v x l, apply (h ++ h0) v x = RArr l -> List.length l <= 1.

Record sinv (h0 : list (event V)) (st : cstate V) : Prop := {
  sv_inv : cinv h0 st;
  sv_len : List.length (c_arr st) <= 1;
  sv_i : c_i st <= 1;
  sv_off : forall h1 x, c_hist st = h1 ++ h0 -> c_arr st = [x] ->
             forall w, w < n -> (c_i st = 1 \/ w < c_v st) -> replaced h1 w \/ declined h1 w x }.

Lemma app_inv_r : forall (a b c : list (event V)), a ++ c = b ++ c -> a = b.
Proof. intros a b c. apply app_inv_tail. Qed.

Lemma sinv_step : forall h0, single h0 -> forall st st', sinv h0 st -> step st = Some st' -> sinv h0 st'.
Proof.
  intros h0 HS st st' [Hinv Hlen Hi Hoff] E.
  pose proof (cinv_step h0 st st' Hinv E) as Hinv1.
  destruct Hinv as [Hok (h1 & Hh & Hs & _ & _)].
  destruct st as [arr i v seen mu h]. cbn [c_arr c_i c_v c_seen c_mutated c_hist] in *. subst h.
  cbn [cstep] in E. destruct (nth_error arr i) as [item|] eqn:N; [|discriminate].
  assert (i < List.length arr) by (apply nth_error_Some; congruence).
  assert (i = 0) by lia. subst i.
  assert (arr = [item]) by (destruct arr as [|a [|b arr]]; cbn in *; try lia; congruence). subst arr.
  destruct (Nat.leb_spec n v) as [L|L].
  { injection E as <-. split; [exact Hinv1| | |]; cbn; try lia.
    intros h2 x Eh Ex w Hw _. injection Ex as <-. apply app_inv_r in Eh. subst h2.
    apply (Hoff h1 item eq_refl eq_refl w Hw). right. lia. }
  destruct (bitset_get seen v) eqn:G.
  { injection E as <-. split; [exact Hinv1| | |]; cbn; try lia.
    intros h2 x Eh Ex w Hw [|D]; [lia|]. injection Ex as <-. apply app_inv_r in Eh. subst h2.
    destruct (Nat.eq_dec w v) as [->|].
    - left. now apply Hs.
    - apply (Hoff h1 item eq_refl eq_refl w Hw). right. lia. }
  destruct (apply (h1 ++ h0) v item) as [|x|[|x [|y l]]] eqn:A.
  - injection E as <-. split; [exact Hinv1| | |]; cbn [c_arr c_i c_hist c_v List.length]; try lia.
    intros h2 x Eh Ex w Hw [|D]; [lia|]. injection Ex as <-.
    change ((v, item, RNone) :: h1 ++ h0) with (((v, item, RNone) :: h1) ++ h0) in Eh.
    apply app_inv_r in Eh. subst h2. destruct (Nat.eq_dec w v) as [->|].
    + right. now left.
    + destruct (Hoff h1 item eq_refl eq_refl w Hw) as [(y & r & Hin & Hn)|Hd]; [right; lia| |].
      * left. exists y, r. split; [now right|exact Hn].
      * right. now right.
  - injection E as <-. split; [exact Hinv1| | |]; cbn; try lia.
  - injection E as <-. split; [exact Hinv1| | |]; cbn; try lia; try discriminate.
  - injection E as <-. split; [exact Hinv1| | |]; cbn; try lia.
  - apply HS in A. cbn in A. lia.
Qed.

Theorem compose_single_complete : forall seen h arg k st,
    single h -> bitset_ok n seen -> run k (cinit V seen h arg) = Some st ->
    exists h1, c_hist st = h1 ++ h
          /\ forall x, In x (c_arr st) -> forall w, w < n -> replaced h1 w \/ declined h1 w x.
Proof.
  intros seen h arg k st HS Hok R.
  assert (S0 : sinv h (cinit V seen h arg)).
  { split; [now apply cinit_inv| | |]; cbn; lia. }
  destruct (crun_inv (sinv h) (sinv_step h HS) k _ st S0 R) as [[[_ (h1 & Hh & _)] Hlen Hi Hoff] Hend].
  exists h1. split; [exact Hh|]. intros x Hx w Hw.
  destruct st as [arr i v seen' mu h']. cbn [c_arr c_i c_v c_seen c_mutated c_hist] in *.
  destruct arr as [|a [|b arr]]; [contradiction| |cbn in Hlen; lia].
  destruct Hx as [<-|[]]. apply (Hoff h1 a Hh eq_refl w Hw). left.
  cbn [cstep] in Hend. destruct i as [|i]; [|lia]. cbn in Hend.
  destruct (n <=? v); [discriminate|]. destruct (bitset_get seen' v); [discriminate|].
  destruct (apply h' v a) as [|y|[|y [|z l]]]; discriminate.
Qed.
End Compose.

Lemma seen_set_ok : forall n s, seen_set n s -> bitset_ok n s.
Proof.
  induction 1; auto using bitset_new_ok, bitset_set_ok, bitset_clear_ok.
Qed.

Theorem compose_once : forall V apply n seen h (arg : V) k st,
    seen_set n seen -> crun V apply n k (cinit V seen h arg) = Some st ->
    exists h1, c_hist st = h1 ++ h /\ (forall v, replacements h1 v <= 1)
          /\ (cresult V st = RNone <-> forall v, ~ replaced h1 v).
Proof. intros. eapply compose_replaces_once; eauto using seen_set_ok. Qed.

Theorem compose_complete : forall V apply n seen h (arg : V) k st,
    at_most_one apply -> seen_set n seen -> crun V apply n k (cinit V seen h arg) = Some st ->
    exists h1, c_hist st = h1 ++ h
          /\ forall x, In x (c_arr st) -> forall w, w < n -> replaced h1 w \/ declined h1 w x.
Proof.
  intros V apply n seen h arg k st HA HS HR.
  eapply compose_single_complete; [|apply seen_set_ok, HS|exact HR].
  intros h' v x l. apply HA.
Qed.

Theorem compose_ends : forall V apply n seen h (arg : V), seen_set n seen ->
    exists k st, crun V apply n k (cinit V seen h arg) = Some st.
Proof. intros. apply compose_terminates. cbn. now apply bitset_clear_ok, seen_set_ok. Qed.

(** ** composeSimpleVisitors *)
Definition changes {V} (h : list (event V)) : bool :=
  existsb (fun e : event V => match e with (_, _, RNone) => false | _ => true end) h.
Lemma changes_replaced : forall V (h : list (event V)), changes h = false <-> forall v, ~ replaced h v.
Proof.
  intros V h. unfold changes. split.
  - intros H v (x & r & Hin & Hn). apply Hn. destruct r; [reflexivity| |];
      (assert (existsb (fun e : event V => match e with (_, _, RNone) => false | _ => true end) h = true) as X;
       [apply existsb_exists; eexists; split; [exact Hin|reflexivity]|congruence]).
  - intros H. destruct (existsb _ h) eqn:E; [|reflexivity]. apply existsb_exists in E as ([[v x] r] & Hin & Hr).
    exfalso. apply (H v). exists x, r. split; [exact Hin|]. destruct r; discriminate.
Qed.
Lemma simple_loop_pipe : forall V (f : list (event V) -> nat -> V -> option V) vs h x mu,
    exists h1 z, pipeline f vs h x (h1 ++ h) z
      /\ simple_loop V f vs x mu h = (if mu || changes h1 then Some z else None, h1 ++ h).
Proof.
  intros V f. induction vs as [|v vs IH]; intros h x mu.
  - exists [], x. split; [constructor|]. cbn. now rewrite orb_false_r.
  - cbn [simple_loop]. destruct (f h v x) as [y|] eqn:E.
    + destruct (IH ((v, x, ROne y) :: h) y true) as (h1 & z & O & L).
      exists (h1 ++ [(v, x, ROne y)]), z. rewrite <- app_assoc. split; [econstructor; eassumption|].
      rewrite L. unfold changes. rewrite existsb_app. cbn. now rewrite !orb_true_r.
    + destruct (IH ((v, x, RNone) :: h) x mu) as (h1 & z & O & L).
      exists (h1 ++ [(v, x, RNone)]), z. rewrite <- app_assoc. split; [now apply Pipe_none|].
      rewrite L. unfold changes. rewrite existsb_app. cbn. now rewrite orb_false_r.
Qed.
Theorem simple_compose : forall V (f : list (event V) -> nat -> V -> option V) n h x,
    exists h1 z, pipeline f (seq 0 n) h x (h1 ++ h) z
      /\ (simple_loop V f (seq 0 n) x false h = (Some z, h1 ++ h) /\ (exists v, replaced h1 v)
          \/ simple_loop V f (seq 0 n) x false h = (None, h1 ++ h) /\ forall v, ~ replaced h1 v).
Proof.
  intros V f n h x. destruct (simple_loop_pipe V f (seq 0 n) h x false) as (h1 & z & P & L).
  exists h1, z. split; [exact P|]. cbn [orb] in L. destruct (changes h1) eqn:C.
  - left. split; [exact L|]. unfold changes in C.
    apply existsb_exists in C as ([[v y] r] & Hin & Hr). exists v, y, r. split; [exact Hin|].
    destruct r; discriminate.
  - right. split; [exact L|]. now apply changes_replaced.
Qed.
