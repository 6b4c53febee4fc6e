(** * Proofs about the handler of flex declarations *)

From Coq Require Import List String Bool ZArith Lia.
From Verif Require Import FlexModel FlexSpec.
Import ListNotations.

Lemma slot_eqb_spec : forall a b, reflect (a = b) (slot_eqb a b).
Proof. intros a b; destruct a, b; cbn; constructor; congruence. Qed.

Lemma slot_eqb_refl : forall a, slot_eqb a a = true.
Proof. intros a; destruct a; reflexivity. Qed.

Lemma slot_eqb_sym : forall a b, slot_eqb a b = slot_eqb b a.
Proof. intros a b; destruct a, b; reflexivity. Qed.

Lemma basis_eqb_eq : forall a b, basis_eqb a b = true -> a = b.
Proof.
  intros a b; destruct a, b; cbn; intros H; try discriminate H; try reflexivity.
  apply PeanoNat.Nat.eqb_eq in H; congruence.
Qed.

Lemma value_eqb_eq : forall a b, value_eqb a b = true -> a = b.
Proof.
  intros a b; destruct a as [d|w|z|k|n], b as [d'|w'|z'|k'|n']; cbn;
    intros H; try discriminate H.
  - destruct d, d'; try discriminate H; reflexivity.
  - destruct w, w'; try discriminate H; reflexivity.
  - apply Z.eqb_eq in H; congruence.
  - apply basis_eqb_eq in H; congruence.
  - apply PeanoNat.Nat.eqb_eq in H; congruence.
Qed.

Lemma put_same : forall h s x, put h s x s = x.
Proof. intros h s x; unfold put; rewrite slot_eqb_refl; reflexivity. Qed.

Lemma put_other : forall h s t x, s <> t -> put h s x t = h t.
Proof.
  intros h s t x N; unfold put; destruct (slot_eqb_spec s t); [congruence|reflexivity].
Qed.

Lemma apart : forall y t, standard y = true -> standard t = false -> slot_eqb y t = false.
Proof. intros y t H J; destruct y, t; cbn in *; congruence. Qed.

Lemma existsb_pointwise : forall (A : Type) (f g : A -> bool) l,
  (forall a, f a = g a) -> existsb f l = existsb g l.
Proof. intros A f g l H; induction l as [|a l IH]; cbn; [reflexivity|rewrite H, IH; reflexivity]. Qed.

Lemma existsb_or : forall (A : Type) (f g : A -> bool) l,
  existsb f l || existsb g l = existsb (fun a => f a || g a) l.
Proof.
  intros A f g l; induction l as [|a l IH]; cbn; [reflexivity|rewrite <- IH].
  destruct (f a), (g a), (existsb f l); reflexivity.
Qed.

Section Block.
  Variable T : targets.
  Variable K : pset.
  Variable l : list (decl prefix).
  Variable x : slot.

  Definition known (ps : pset) : bool := existsb (fun q => ps q && K q) all_prefixes.

  (** The targets keep, of a set of prefixes, those the browser knows. *)
  Hypothesis keeps : forall p k,
    known (prefixes T p k) = known p.
  Hypothesis moz : K Moz = true -> forall p k, p Moz = false -> prefixes T p k Moz = false.
  Hypothesis ms : K Ms = true -> forall p k, p Ms = false -> prefixes T p k Ms = false.
  Hypothesis slot_ok :
    standard x = true \/ (browsers T = false /\ forall p k, prefixes T p k = p).
  Hypothesis calm_block : steady K l x.

  Definition casc (out : list (decl pset)) (b : option cell) : option cell :=
    last_value (fun d => printed_with d K) (fun d => gives d x) out b.

  Lemma casc_app : forall a c b, casc (a ++ c) b = casc c (casc a b).
  Proof.
    intros a; induction a as [|d a IH]; intros c b; [reflexivity|].
    cbn; apply IH.
  Qed.

  Lemma casc_nil : forall b, casc [] b = b.
  Proof. reflexivity. Qed.

  Lemma casc_one : forall d b,
    casc [d] b = if known (prefix_of d)
                 then match gives d x with Some c => Some c | None => b end else b.
  Proof. reflexivity. Qed.

  Definition val (f : option (value * pset)) (b : option cell) : option cell :=
    match f with
    | Some (v, ps) => if known ps then Some (Given v) else b
    | None => b
    end.

  Lemma known_none : forall ps, empty ps = true -> known ps = false.
  Proof.
    intros ps H; unfold empty, known, all_prefixes in *; cbn in *.
    destruct (ps NoPrefix), (ps WebKit), (ps Moz), (ps Ms), (ps Opera);
      cbn in H; try discriminate H; reflexivity.
  Qed.

  Lemma known_minus : forall ps q,
    (K q = true -> ps q = false) -> known (minus ps (only q)) = known ps.
  Proof.
    intros ps q H; unfold known; apply existsb_pointwise; intros r; unfold minus, only.
    destruct (prefix_eqb q r) eqn:E; cbn [negb]; rewrite ?andb_true_r; [|reflexivity].
    assert (r = q) as -> by (destruct q, r; try discriminate E; reflexivity).
    destruct (K q); [rewrite H by reflexivity; reflexivity|].
    rewrite !andb_false_r; reflexivity.
  Qed.

  Lemma known_split : forall ps i,
    (forall q, i q = true -> ps q = true) ->
    known ps = known i || known (minus ps i).
  Proof.
    intros ps i H; unfold known; rewrite existsb_or; apply existsb_pointwise.
    intros r; unfold minus; specialize (H r).
    destruct (i r); [rewrite H by reflexivity|]; destruct (K r), (ps r); reflexivity.
  Qed.

  Lemma known_add : forall ps p, known (add_prefix ps p) = known ps || K p.
  Proof.
    intros ps p; unfold known, add_prefix.
    transitivity (existsb (fun q => ps q && K q) all_prefixes
                  || existsb (fun q => prefix_eqb p q && K q) all_prefixes).
    - rewrite existsb_or; apply existsb_pointwise; intros r.
      destruct (K r); rewrite ?andb_true_r, ?andb_false_r; reflexivity.
    - f_equal. destruct p; cbn; rewrite ?orb_false_r; reflexivity.
  Qed.

  Lemma known_only : forall p, known (only p) = K p.
  Proof.
    intros p; destruct p; unfold known, only, all_prefixes; cbn;
      rewrite ?orb_false_r; reflexivity.
  Qed.

  Lemma known_has : forall ps p, ps p = true -> K p = true -> known ps = true.
  Proof.
    intros ps p H J; unfold known; apply existsb_exists; exists p; split.
    - destruct p; cbn; tauto.
    - rewrite H, J; reflexivity.
  Qed.

  (** ** The pieces of a flush *)

  Definition at_slot (y s : slot) (f : option (value * pset)) (b : option cell) : option cell :=
    if slot_eqb y s then val f b else b.

  Definition at_flow (y : slot) (h : fields) (i : pset) (c : option cell) : option cell :=
    match y with
    | Direction | Wrap => if known i then val (h y) c else c
    | _ => c
    end.

  Definition at_flex (y : slot) (h : fields) (j : pset) (c : option cell) : option cell :=
    match y with
    | Grow | Shrink | Basis => if known j then val (h y) c else c
    | _ => c
    end.

  Lemma casc_legacy : forall h t b,
    casc (legacy h t) b = at_slot x t (h t) b.
  Proof.
    intros h t b; unfold legacy, at_slot; destruct (h t) as [[v ps]|]; cbn [val].
    - destruct (empty ps) eqn:E.
      + rewrite (known_none _ E), casc_nil; destruct (slot_eqb x t); reflexivity.
      + rewrite casc_one; cbn [prefix_of gives].
        destruct (slot_eqb x t), (known ps); reflexivity.
    - rewrite casc_nil; destruct (slot_eqb x t); reflexivity.
  Qed.

  Lemma casc_apart : forall out b,
    Forall (fun d => gives d x = None) out -> casc out b = b.
  Proof.
    intros out b H; revert b; induction H as [|d out Hd H IH]; intros b; [reflexivity|].
    change (d :: out) with ([d] ++ out); rewrite casc_app, IH, casc_one, Hd.
    destruct (known (prefix_of d)); reflexivity.
  Qed.

  Lemma casc_old : forall f s olds b,
    (forall v, Forall (fun o => standard (fst o) = false) (olds v)) ->
    casc (old_ones T f s olds) b = b.
  Proof.
    intros f s olds b H; unfold old_ones; destruct f as [[v ps]|]; [|reflexivity].
    destruct (browsers T) eqn:B; [|reflexivity].
    destruct (empty _); [reflexivity|].
    pose proof slot_ok as Ok; destruct Ok as [X|[X _]]; [|congruence].
    apply casc_apart; apply Forall_map.
    eapply Forall_impl; [|apply H]; cbn; intros o O.
    rewrite (apart _ _ X O); reflexivity.
  Qed.

  Lemma casc_single : forall f t d2012 d2009 fs b,
    standard t = true ->
    (forall o, d2012 = Some o -> standard o = false) ->
    (forall o, d2009 = Some o -> standard o = false) ->
    (forall v ps, f = Some (v, ps) -> ps Moz = false) ->
    (forall v ps o, f = Some (v, ps) -> d2012 = Some o -> ps Ms = false) ->
    casc (single T f t d2012 d2009 fs) b = at_slot x t f b.
  Proof.
    intros f t d2012 d2009 fs b St H12 H09 Hmoz Hms.
    unfold single, at_slot; destruct f as [[v ps]|]; cbn [val].
    2: { rewrite casc_nil; destruct (slot_eqb x t); reflexivity. }
    specialize (Hmoz v ps eq_refl). specialize (Hms v ps).
    destruct (empty ps) eqn:E.
    { rewrite (known_none _ E), casc_nil; destruct (slot_eqb x t); reflexivity. }
    set (p := prefixes T ps (Long t)).
    assert (Kp : known p = known ps) by apply keeps.
    assert (Mp : K Moz = true -> p Moz = false) by (intros M; apply (moz M); exact Hmoz).
    rewrite casc_app.
    assert (A1 : forall c, casc (if p NoPrefix then
             match d2009 with
             | Some o =>
                 if browsers T then
                   if empty (prefixes_2009 T p) then []
                   else match fs v with
                        | Some w => [DOne o w (prefixes_2009 T p)]
                        | None => []
                        end
                 else []
             | None => []
             end
           else []) c = c).
    { intros c. destruct (p NoPrefix); [|reflexivity].
      destruct d2009 as [o|]; [|reflexivity].
      destruct (browsers T) eqn:B; [|reflexivity].
      destruct (empty (prefixes_2009 T p)); [reflexivity|].
      destruct (fs v) as [w|]; [|reflexivity].
      pose proof slot_ok as Ok; destruct Ok as [X|[X _]]; [|congruence].
      apply casc_apart; constructor; [|constructor].
      cbn [gives]; rewrite (apart _ _ X (H09 o eq_refl)); reflexivity. }
    rewrite A1, casc_app.
    assert (A2 : forall c, casc (match d2012 with
              | Some o => if p Ms then [DOne o v (only Ms)] else []
              | None => []
              end) c = c).
    { intros c; destruct d2012 as [o|]; [|reflexivity].
      destruct (p Ms) eqn:M; [|reflexivity].
      pose proof slot_ok as Ok; destruct Ok as [X|[_ X]].
      - apply casc_apart; constructor; [|constructor].
        cbn [gives]; rewrite (apart _ _ X (H12 o eq_refl)); reflexivity.
      - unfold p in M; rewrite X in M.
        rewrite (Hms o eq_refl eq_refl) in M; discriminate M. }
    rewrite A2, casc_one; cbn [prefix_of gives].
    assert (A3 : known (minus (match d2012 with Some _ => minus p (only Ms) | None => p end)
                      (only Moz)) = known ps).
    { rewrite known_minus.
      - destruct d2012 as [o|]; [|exact Kp].
        rewrite known_minus; [exact Kp|].
        intros M; apply (ms M); exact (Hms o eq_refl eq_refl).
      - intros M; destruct d2012 as [o|]; unfold minus; rewrite (Mp M); reflexivity. }
    rewrite A3. destruct (slot_eqb x t), (known ps); reflexivity.
  Qed.

  Lemma val_drop : forall f i b,
    (forall v ps, f = Some (v, ps) -> forall q, i q = true -> ps q = true) ->
    val (drop_prefixes f i) (if known i then val f b else b) = val f b.
  Proof.
    intros f i b H; destruct f as [[v ps]|]; cbn [drop_prefixes val].
    - rewrite (known_split ps i (H v ps eq_refl)).
      destruct (known i), (known (minus ps i)); reflexivity.
    - destruct (known i); reflexivity.
  Qed.

  (** ** What holds of the fields *)

  Definition field_allowed (s : slot) (p : prefix) : Prop :=
    match s with
    | Direction | Wrap | Grow | Shrink | Basis => p = NoPrefix \/ p = WebKit \/ p = Ms
    | Order => p = NoPrefix \/ p = WebKit
    | _ => True
    end.

  Definition bounded (h : fields) : Prop :=
    forall s v ps q, h s = Some (v, ps) -> ps q = true -> field_allowed s q.

  Definition has_ms (h : fields) (s : slot) : bool :=
    match h s with Some (_, ps) => ps Ms | None => false end.

  Definition balanced (h : fields) : Prop :=
    has_ms h Grow = has_ms h Shrink /\ has_ms h Shrink = has_ms h Basis.

  Lemma bounded_moz : forall h s v ps,
    bounded h -> standard s = true -> h s = Some (v, ps) -> ps Moz = false.
  Proof.
    intros h s v ps B St E. destruct (ps Moz) eqn:M; [|reflexivity].
    specialize (B s v ps Moz E M). destruct s; cbn in *; try discriminate St;
      intuition discriminate.
  Qed.

  Local Opaque single legacy old_ones casc.

  Lemma flush_value : forall h b,
    bounded h -> balanced h -> casc (flush T h) b = val (h x) b.
  Proof.
    intros h b Bo [Ba1 Ba2]; unfold flush.
    rewrite !casc_app, !casc_legacy.
    rewrite (casc_old _ _ to_2009).
    2: { intros v; destruct v as [d| | | |]; cbn; try constructor; destruct d;
         repeat constructor. }
    rewrite (casc_old _ _ (fun v => [(BoxFlex, v)])).
    2: { intros v; repeat constructor. }
    set (i := match h Direction, h Wrap with
              | Some (_, p), Some (_, q) => inter p q
              | _, _ => none_of
              end).
    set (j := match h Grow, h Shrink, h Basis with
              | Some (_, p), Some (_, q), Some (_, r) => inter (inter p q) r
              | _, _, _ => none_of
              end).
    assert (Iin : forall s, s = Direction \/ s = Wrap ->
      forall v ps, h s = Some (v, ps) -> forall q, i q = true -> ps q = true).
    { intros s S v ps E q Q; unfold i in Q.
      destruct (h Direction) as [[v1 p1]|] eqn:E1; [|discriminate Q].
      destruct (h Wrap) as [[v2 p2]|] eqn:E2; [|discriminate Q].
      apply andb_true_iff in Q as [Q1 Q2].
      destruct S as [-> | ->]; congruence. }
    assert (Jin : forall s, s = Grow \/ s = Shrink \/ s = Basis ->
      forall v ps, h s = Some (v, ps) -> forall q, j q = true -> ps q = true).
    { intros s S v ps E q Q; unfold j in Q.
      destruct (h Grow) as [[v1 p1]|] eqn:E1; [|discriminate Q].
      destruct (h Shrink) as [[v2 p2]|] eqn:E2; [|discriminate Q].
      destruct (h Basis) as [[v3 p3]|] eqn:E3; [|discriminate Q].
      apply andb_true_iff in Q as [Q3 Q4]; apply andb_true_iff in Q3 as [Q1 Q2].
      destruct S as [-> |[-> | ->]]; congruence. }
    assert (Jms : forall s, s = Grow \/ s = Shrink \/ s = Basis ->
      forall v ps, h s = Some (v, ps) -> minus ps j Ms = false).
    { intros s S v ps E; unfold minus.
      destruct (ps Ms) eqn:M; [|reflexivity]; cbn.
      unfold has_ms in Ba1, Ba2; unfold j.
      destruct (h Grow) as [[v1 p1]|] eqn:E1;
        destruct (h Shrink) as [[v2 p2]|] eqn:E2;
        destruct (h Basis) as [[v3 p3]|] eqn:E3;
        unfold inter; destruct S as [-> |[-> | ->]]; try congruence;
        replace (p1 Ms) with true by congruence;
        replace (p2 Ms) with true by congruence;
        replace (p3 Ms) with true by congruence; reflexivity. }
    assert (NM : forall s i' v ps, standard s = true ->
      drop_prefixes (h s) i' = Some (v, ps) -> ps Moz = false).
    { intros s i' v ps S E; destruct (h s) as [[w qs]|] eqn:F; [|discriminate E].
      injection E as <- <-; unfold minus.
      rewrite (bounded_moz h s w qs Bo S F); reflexivity. }
    assert (Imoz : i Moz = false).
    { destruct (i Moz) eqn:M; [|reflexivity].
      unfold i in M; destruct (h Direction) as [[v1 p1]|] eqn:E1; [|discriminate M].
      destruct (h Wrap) as [[v2 p2]|] eqn:E2; [|discriminate M].
      apply andb_true_iff in M as [M _].
      rewrite (bounded_moz h Direction v1 p1 Bo eq_refl E1) in M; discriminate M. }
    assert (Jmoz : j Moz = false).
    { destruct (j Moz) eqn:M; [|reflexivity].
      unfold j in M; destruct (h Grow) as [[v1 p1]|] eqn:E1; [|discriminate M].
      destruct (h Shrink) as [[v2 p2]|] eqn:E2; [|discriminate M].
      destruct (h Basis) as [[v3 p3]|] eqn:E3; [|discriminate M].
      apply andb_true_iff in M as [M _]; apply andb_true_iff in M as [M _].
      rewrite (bounded_moz h Grow v1 p1 Bo eq_refl E1) in M; discriminate M. }
    assert (FlowC : forall c, casc (match h Direction, h Wrap with
         | Some (d, _), Some (w, _) =>
             if empty i then []
             else [DFlow d w (minus (prefixes T i FlowP) (only Moz))]
         | _, _ => []
         end) c = at_flow x h i c).
    { intros c; unfold at_flow.
      destruct (h Direction) as [[v1 p1]|] eqn:E1.
      2: { assert (KN : known i = false) by (apply known_none; reflexivity).
           rewrite casc_nil, KN; destruct x; reflexivity. }
      destruct (h Wrap) as [[v2 p2]|] eqn:E2.
      2: { assert (KN : known i = false) by (apply known_none; reflexivity).
           rewrite casc_nil, KN; destruct x; reflexivity. }
      destruct (empty i) eqn:E.
      { rewrite (known_none _ E), casc_nil; destruct x; reflexivity. }
      rewrite casc_one; cbn [prefix_of].
      rewrite known_minus, keeps by (intros M; apply (moz M); exact Imoz).
      destruct (known i) eqn:KI; [|destruct x; reflexivity].
      destruct x; cbn [gives]; try reflexivity; rewrite ?E1, ?E2; cbn [val].
      - rewrite (known_split p1 i (Iin Direction (or_introl eq_refl) v1 p1 E1)), KI; reflexivity.
      - rewrite (known_split p2 i (Iin Wrap (or_intror eq_refl) v2 p2 E2)), KI; reflexivity. }
    assert (FlexC : forall c, casc (match h Grow, h Shrink, h Basis with
         | Some (g, _), Some (s, _), Some (b, _) =>
             if empty j then []
             else [DFlex g s b (minus (prefixes T j FlexP) (only Moz))]
         | _, _, _ => []
         end) c = at_flex x h j c).
    { intros c; unfold at_flex.
      destruct (h Grow) as [[v1 p1]|] eqn:E1.
      2: { assert (KN : known j = false) by (apply known_none; reflexivity).
           rewrite casc_nil, KN; destruct x; reflexivity. }
      destruct (h Shrink) as [[v2 p2]|] eqn:E2.
      2: { assert (KN : known j = false) by (apply known_none; reflexivity).
           rewrite casc_nil, KN; destruct x; reflexivity. }
      destruct (h Basis) as [[v3 p3]|] eqn:E3.
      2: { assert (KN : known j = false) by (apply known_none; reflexivity).
           rewrite casc_nil, KN; destruct x; reflexivity. }
      destruct (empty j) eqn:E.
      { rewrite (known_none _ E), casc_nil; destruct x; reflexivity. }
      rewrite casc_one; cbn [prefix_of].
      rewrite known_minus, keeps by (intros M; apply (moz M); exact Jmoz).
      destruct (known j) eqn:KI; [|destruct x; reflexivity].
      destruct x; cbn [gives]; try reflexivity; rewrite ?E1, ?E2, ?E3; cbn [val].
      - rewrite (known_split p1 j (Jin Grow (or_introl eq_refl) v1 p1 E1)), KI; reflexivity.
      - rewrite (known_split p2 j (Jin Shrink (or_intror (or_introl eq_refl)) v2 p2 E2)), KI; reflexivity.
      - rewrite (known_split p3 j (Jin Basis (or_intror (or_intror eq_refl)) v3 p3 E3)), KI; reflexivity. }
    rewrite FlowC, FlexC. clear FlowC FlexC.
    rewrite (casc_single (drop_prefixes (h Direction) i) Direction None None);
      [|reflexivity|intros o Z; discriminate Z|intros o Z; discriminate Z|intros v ps; apply NM; reflexivity|intros v ps o _ Z; discriminate Z].
    rewrite (casc_single (drop_prefixes (h Wrap) i) Wrap None (Some BoxLines));
      [|reflexivity|intros o Z; discriminate Z|intros o [= <-]; reflexivity|intros v ps; apply NM; reflexivity|intros v ps o _ Z; discriminate Z].
    assert (MsD : forall s, s = Grow \/ s = Shrink \/ s = Basis ->
      forall v ps, drop_prefixes (h s) j = Some (v, ps) -> ps Ms = false).
    { intros s S v ps E; destruct (h s) as [[w qs]|] eqn:F; [|discriminate E].
      injection E as <- <-. exact (Jms s S w qs F). }
    rewrite (casc_single (drop_prefixes (h Grow) j) Grow (Some FlexPositive) None);
      [|reflexivity|intros o [= <-]; reflexivity|intros o Z; discriminate Z|intros v ps; apply NM; reflexivity
       |intros v ps o E _; exact (MsD Grow (or_introl eq_refl) v ps E)].
    rewrite (casc_single (drop_prefixes (h Shrink) j) Shrink (Some FlexNegative) None);
      [|reflexivity|intros o [= <-]; reflexivity|intros o Z; discriminate Z|intros v ps; apply NM; reflexivity
       |intros v ps o E _; exact (MsD Shrink (or_intror (or_introl eq_refl)) v ps E)].
    rewrite (casc_single (drop_prefixes (h Basis) j) Basis (Some PreferredSize) None);
      [|reflexivity|intros o [= <-]; reflexivity|intros o Z; discriminate Z|intros v ps; apply NM; reflexivity
       |intros v ps o E _; exact (MsD Basis (or_intror (or_intror eq_refl)) v ps E)].
    rewrite (casc_single (h Order) Order (Some FlexOrder) (Some BoxOrdinalGroup));
      [|reflexivity|intros o [= <-]; reflexivity|intros o [= <-]; reflexivity
       |intros v ps E; exact (bounded_moz h Order v ps Bo eq_refl E)
       |intros v ps o E _].
    2: { destruct (ps Ms) eqn:M; [|reflexivity].
         specialize (Bo Order v ps Ms E M); cbn in Bo; intuition discriminate. }
    pose proof (val_drop (h Direction) i b (Iin Direction (or_introl eq_refl))) as V1.
    pose proof (val_drop (h Wrap) i b (Iin Wrap (or_intror eq_refl))) as V2.
    pose proof (val_drop (h Grow) j b (Jin Grow (or_introl eq_refl))) as V3.
    pose proof (val_drop (h Shrink) j b (Jin Shrink (or_intror (or_introl eq_refl)))) as V4.
    pose proof (val_drop (h Basis) j b (Jin Basis (or_intror (or_intror eq_refl)))) as V5.
    clearbody i j. clear MsD NM Iin Jin Jms Imoz Jmoz.
    destruct x; cbn [at_slot at_flow at_flex slot_eqb]; try reflexivity; assumption.
  Qed.

  Local Transparent single legacy old_ones casc.

  (** ** Steps *)

  Definition origin (h : fields) : Prop :=
    forall v ps q, h x = Some (v, ps) -> ps q = true ->
      (exists w, given_under l x q w) /\
      ((forall p a b, given_under l x p a -> given_under l x p b -> a = b) ->
       given_under l x q v).

  Definition good (h : fields) : Prop := bounded h /\ origin h.

  Definition rel (st : state) (c : option cell) : Prop :=
    c = val (fst st x) (casc (snd st) None).

  Lemma good_none : good no_fields.
  Proof. split; [intros s v ps q E; discriminate E|intros v ps q E; discriminate E]. Qed.

  Lemma balanced_none : balanced no_fields.
  Proof. split; reflexivity. Qed.

  Lemma flush_rel : forall st c,
    good (fst st) -> balanced (fst st) -> rel st c ->
    rel (no_fields, snd st ++ flush T (fst st)) c.
  Proof.
    intros st c [G _] B R; unfold rel in *; cbn [fst snd no_fields val].
    rewrite casc_app, flush_value by assumption; exact R.
  Qed.

  Definition calm (h : fields) (s : slot) (v : value) (p : prefix) : Prop :=
    match h s with Some (w, ps) => w = v \/ ps p = true | None => True end.

  Lemma maybe_flush_ok : forall st s v p c,
    good (fst st) -> balanced (fst st) -> rel st c ->
    let st' := maybe_flush T st s v p in
    good (fst st') /\ balanced (fst st') /\ rel st' c /\ calm (fst st') s v p
    /\ (fst st' = fst st \/ fst st' = no_fields).
  Proof.
    intros st s v p c G B R; unfold maybe_flush, calm.
    destruct (fst st s) as [[w ps]|] eqn:E; cbn [fst snd].
    - destruct (value_eqb w v) eqn:V; cbn [negb andb].
      + rewrite E. apply value_eqb_eq in V. intuition.
      + destruct (ps p) eqn:P; cbn [negb].
        * rewrite E. intuition.
        * cbn [fst]. split; [exact good_none|split; [exact balanced_none|split]].
          -- apply flush_rel; assumption.
          -- split; [exact I|right; reflexivity].
    - rewrite E; intuition.
  Qed.

  Lemma calm_maybe_flush : forall st s v p,
    calm (fst st) s v p -> maybe_flush T st s v p = st.
  Proof.
    intros st s v p H; unfold calm in H; unfold maybe_flush.
    destruct (fst st s) as [[w ps]|]; [|reflexivity].
    destruct H as [-> |H].
    - replace (value_eqb v v) with true; [reflexivity|].
      symmetry; destruct v as [d|w|z|k|n]; cbn.
      + destruct d; reflexivity.
      + destruct w; reflexivity.
      + apply Z.eqb_refl.
      + destruct k; cbn; try reflexivity; apply PeanoNat.Nat.eqb_refl.
      + apply PeanoNat.Nat.eqb_refl.
    - rewrite H, andb_false_r; reflexivity.
  Qed.

  Definition stored (h : fields) (s : slot) (v : value) (p : prefix) : fields :=
    put h s (Some (v, match h s with Some (_, ps) => add_prefix ps p | None => only p end)).

  Lemma set_calm : forall st s v p,
    calm (fst st) s v p ->
    set_field T st s v p = (stored (fst st) s v p, snd st).
  Proof.
    intros st s v p H; unfold set_field, stored; rewrite (calm_maybe_flush _ _ _ _ H).
    destruct (fst st s) as [[w ps]|]; reflexivity.
  Qed.

  Lemma stored_ok : forall st s v p c,
    good (fst st) -> rel st c -> calm (fst st) s v p ->
    field_allowed s p -> (s = x -> given_under l x p v) ->
    good (stored (fst st) s v p) /\
    rel (stored (fst st) s v p, snd st)
        (if K p then (if slot_eqb x s then Some (Given v) else c) else c).
  Proof.
    intros st s v p c [Bo Or] R C F G.
    destruct (slot_eqb_spec x s) as [<-|N].
    2: { split; [split|].
      - intros t w ps q E Q; unfold stored in E.
        destruct (slot_eqb_spec s t) as [<-|N'].
        + rewrite put_same in E; injection E as <- <-.
          destruct (fst st s) as [[w' ps']|] eqn:E'.
          * unfold add_prefix in Q; apply orb_true_iff in Q as [Q|Q].
            -- exact (Bo s w' ps' q E' Q).
            -- destruct p, q; try discriminate Q; exact F.
          * unfold only in Q; destruct p, q; try discriminate Q; exact F.
        + rewrite put_other in E by exact N'. exact (Bo t w ps q E Q).
      - intros w ps q E Q; unfold stored in E. rewrite put_other in E by congruence.
        exact (Or w ps q E Q).
      - unfold rel, stored in *; cbn [fst snd]. rewrite put_other by congruence.
        destruct (K p); exact R. }
    specialize (G eq_refl).
    split; [split|].
    - intros t w ps q E Q; unfold stored in E.
      destruct (slot_eqb_spec x t) as [<-|N'].
      + rewrite put_same in E; injection E as <- <-.
        destruct (fst st x) as [[w' ps']|] eqn:E'.
        * unfold add_prefix in Q; apply orb_true_iff in Q as [Q|Q].
          -- exact (Bo x w' ps' q E' Q).
          -- destruct p, q; try discriminate Q; exact F.
        * unfold only in Q; destruct p, q; try discriminate Q; exact F.
      + rewrite put_other in E by exact N'. exact (Bo t w ps q E Q).
    - intros w ps q E Q; unfold stored in E; rewrite put_same in E.
      injection E as <- <-. unfold calm in C.
      destruct (fst st x) as [[w' ps']|] eqn:E'.
      + unfold add_prefix in Q; apply orb_true_iff in Q as [Q|Q].
        * destruct (Or w' ps' q E' Q) as [O1 O2]; split; [exact O1|].
          intros Con. destruct C as [-> |C]; [exact (O2 Con)|].
          destruct (Or w' ps' p E' C) as [_ O3].
          rewrite <- (Con p w' v (O3 Con) G). exact (O2 Con).
        * assert (q = p) as -> by (destruct p, q; try discriminate Q; reflexivity).
          split; [exists v; exact G|intros _; exact G].
      + assert (q = p) as -> by (unfold only in Q; destruct p, q; try discriminate Q; reflexivity).
        split; [exists v; exact G|intros _; exact G].
    - unfold rel in *; cbn [fst snd]; unfold stored; rewrite put_same; cbn [val].
      unfold calm in C.
      destruct (fst st x) as [[w ps]|] eqn:E; cbn [val] in R.
      + rewrite known_add. destruct (K p) eqn:Kp; [rewrite orb_true_r; reflexivity|].
        rewrite orb_false_r.
        destruct (known ps) eqn:Kn; [|exact R].
        destruct C as [-> |C]; [exact R|].
        pose proof calm_block as Cb; destruct Cb as [S1|S1].
        * exfalso. unfold known in Kn; apply existsb_exists in Kn as (q & _ & Q).
          apply andb_true_iff in Q as [Q1 Q2].
          destruct (Or w ps q E Q1) as [[a A] _].
          rewrite (S1 q p a v A G) in Q2; congruence.
        * destruct (Or w ps p E C) as [_ O].
          rewrite (S1 p w v (O S1) G) in R; exact R.
      + rewrite known_only; destruct (K p); [reflexivity|exact R].
  Qed.

  Lemma has_ms_stored_other : forall h s v p t, s <> t -> has_ms (stored h s v p) t = has_ms h t.
  Proof. intros h s v p t N; unfold has_ms, stored; rewrite put_other by exact N; reflexivity. Qed.

  Lemma has_ms_stored_same : forall h s v p,
    has_ms (stored h s v p) s = has_ms h s || prefix_eqb p Ms.
  Proof.
    intros h s v p; unfold has_ms, stored; rewrite put_same.
    destruct (h s) as [[w ps]|]; [reflexivity|]. cbn; destruct p; reflexivity.
  Qed.

  (** One longhand: what is stored stays balanced unless it is a part of
      [flex] under [-ms-]. *)
  Lemma set_ok : forall st s v p c,
    good (fst st) -> balanced (fst st) -> rel st c ->
    field_allowed s p -> (s = x -> given_under l x p v) ->
    (prefix_eqb p Ms = false \/ (s <> Grow /\ s <> Shrink /\ s <> Basis)) ->
    let st' := set_field T st s v p in
    good (fst st') /\ balanced (fst st')
    /\ rel st' (if K p then (if slot_eqb x s then Some (Given v) else c) else c).
  Proof.
    intros st s v p c G B R F U M; cbn zeta.
    destruct (maybe_flush_ok st s v p c G B R) as (G' & B' & R' & C & _).
    assert (E : set_field T st s v p
                = (stored (fst (maybe_flush T st s v p)) s v p, snd (maybe_flush T st s v p))).
    { rewrite <- set_calm by exact C. unfold set_field.
      rewrite (calm_maybe_flush (maybe_flush T st s v p) s v p C). reflexivity. }
    rewrite E; cbn [fst].
    destruct (stored_ok _ s v p c G' R' C F U) as [G'' R''].
    split; [exact G''|split; [|exact R'']].
    set (h := fst (maybe_flush T st s v p)) in *.
    destruct M as [M|(M1 & M2 & M3)].
    - assert (A : forall t, has_ms (stored h s v p) t = has_ms h t).
      { intros t; destruct (slot_eqb_spec s t) as [<-|N].
        - rewrite has_ms_stored_same, M, orb_false_r; reflexivity.
        - apply has_ms_stored_other; exact N. }
      unfold balanced; rewrite !A; exact B'.
    - unfold balanced; rewrite !has_ms_stored_other by congruence; exact B'.
  Qed.

  Lemma reset_ok : forall st olds c,
    Forall (fun s => standard s = false) olds ->
    good (fst st) -> balanced (fst st) -> rel st c ->
    let st' := reset T st olds in
    good (fst st') /\ balanced (fst st') /\ rel st' c.
  Proof.
    intros st olds c H G B R; unfold reset.
    destruct (browsers T) eqn:E; cbn zeta; [|intuition].
    pose proof slot_ok as Ok; destruct Ok as [X|[X _]]; [|congruence].
    assert (A : forall h, good h -> balanced h ->
      let h' := fold_left (fun h s => put h s None) olds h in
      good h' /\ balanced h' /\ h' x = h x).
    { clear G B R; induction H as [|s olds Hs H IH]; intros h G B; cbn [fold_left]; [tauto|].
      assert (N : forall t, standard t = true -> s <> t) by (intros t St ->; congruence).
      destruct (IH (put h s None)) as (G' & B' & Y).
      - destruct G as [G1 G2]; split.
        + intros t v ps q P; unfold put in P.
          destruct (slot_eqb s t); [discriminate P|]. exact (G1 t v ps q P).
        + intros v ps q P; rewrite put_other in P by (apply N; exact X).
          exact (G2 v ps q P).
      - unfold balanced, has_ms in *; rewrite !put_other by (apply N; reflexivity).
        exact B.
      - cbn zeta. split; [exact G'|split; [exact B'|]].
        rewrite Y; apply put_other; apply N; exact X. }
    destruct (A (fst st) G B) as (G' & B' & Y); cbn [fst].
    split; [exact G'|split; [exact B'|]].
    unfold rel in *; cbn [fst snd]; rewrite Y; exact R.
  Qed.

  Definition next (c : option cell) (d : decl prefix) : option cell :=
    if written_with d K then match gives d x with Some v => Some v | None => c end else c.

  Lemma handle_ok : forall st d c,
    In d l -> allowed (kind_of d) (prefix_of d) = true ->
    good (fst st) -> balanced (fst st) -> rel st c ->
    let st' := handle T st d in
    good (fst st') /\ balanced (fst st') /\ rel st' (next c d).
  Proof.
    intros st d c I Al G B R; unfold next, written_with.
    destruct d as [a b p|a b c' p|s v p|k raw p]; cbn [handle kind_of prefix_of] in *; cbn zeta.
    - destruct (reset_ok st [BoxDirection; BoxOrient] c) as (G1 & B1 & R1);
        [repeat constructor|assumption|assumption|assumption|].
      assert (F : field_allowed Direction p /\ field_allowed Wrap p)
        by (destruct p; cbn in Al |- *; try discriminate Al; tauto).
      destruct F as [F1 F2].
      destruct (set_ok _ Direction a p c G1 B1 R1 F1) as (G2 & B2 & R2).
      { intros <-; exists (DFlow a b p); split; [exact I|split; reflexivity]. }
      { right; split; [|split]; discriminate. }
      destruct (set_ok _ Wrap b p _ G2 B2 R2 F2) as (G3 & B3 & R3).
      { intros <-; exists (DFlow a b p); split; [exact I|split; reflexivity]. }
      { right; split; [|split]; discriminate. }
      split; [exact G3|split; [exact B3|]].
      destruct (K p); [|exact R3]. destruct x; exact R3.
    - destruct (reset_ok st [BoxFlex; FlexPositive; FlexNegative; PreferredSize] c)
        as (G1 & B1 & R1); [repeat constructor|assumption|assumption|assumption|].
      set (s1 := reset T st _) in *.
      assert (F : field_allowed Grow p) by (destruct p; cbn in Al |- *; try discriminate Al; tauto).
      destruct (maybe_flush_ok s1 Grow a p c G1 B1 R1) as (G2 & B2 & R2 & C2 & _).
      set (s2 := maybe_flush T s1 Grow a p) in *.
      destruct (maybe_flush_ok s2 Shrink b p c G2 B2 R2) as (G3 & B3 & R3 & C3 & D3).
      set (s3 := maybe_flush T s2 Shrink b p) in *.
      destruct (maybe_flush_ok s3 Basis c' p c G3 B3 R3) as (G4 & B4 & R4 & C4 & D4).
      set (s4 := maybe_flush T s3 Basis c' p) in *.
      assert (Q3 : calm (fst s3) Grow a p) by (destruct D3 as [-> | ->]; [exact C2|exact Logic.I]).
      assert (Q4 : calm (fst s4) Grow a p) by (destruct D4 as [-> | ->]; [exact Q3|exact Logic.I]).
      assert (P4 : calm (fst s4) Shrink b p) by (destruct D4 as [-> | ->]; [exact C3|exact Logic.I]).
      rewrite (set_calm s4 Grow a p Q4).
      destruct (stored_ok s4 Grow a p c G4 R4 Q4 F) as [G5 R5].
      { intros <-; exists (DFlex a b c' p); split; [exact I|split; reflexivity]. }
      set (h5 := stored (fst s4) Grow a p) in *.
      assert (P5 : calm (fst (h5, snd s4)) Shrink b p).
      { unfold calm, h5, stored; cbn [fst]; rewrite put_other by discriminate; exact P4. }
      assert (O5 : calm h5 Basis c' p).
      { unfold calm, h5, stored; rewrite put_other by discriminate; exact C4. }
      rewrite (set_calm (h5, snd s4) Shrink b p P5); cbn [fst snd].
      destruct (stored_ok (h5, snd s4) Shrink b p _ G5 R5 P5 F) as [G6 R6].
      { intros <-; exists (DFlex a b c' p); split; [exact I|split; reflexivity]. }
      cbn [fst snd] in G6, R6.
      set (h6 := stored h5 Shrink b p) in *.
      assert (O6 : calm (fst (h6, snd s4)) Basis c' p).
      { unfold calm, h6, stored; cbn [fst]; rewrite put_other by discriminate; exact O5. }
      rewrite (set_calm (h6, snd s4) Basis c' p O6); cbn [fst snd].
      destruct (stored_ok (h6, snd s4) Basis c' p _ G6 R6 O6 F) as [G7 R7].
      { intros <-; exists (DFlex a b c' p); split; [exact I|split; reflexivity]. }
      cbn [fst snd] in G7, R7.
      split; [exact G7|split].
      + unfold balanced, h6, h5.
        rewrite (has_ms_stored_other _ Basis _ _ Grow) by discriminate.
        rewrite (has_ms_stored_other _ Shrink _ _ Grow) by discriminate.
        rewrite (has_ms_stored_other _ Basis _ _ Shrink) by discriminate.
        rewrite !has_ms_stored_same.
        rewrite (has_ms_stored_other _ Shrink _ _ Basis) by discriminate.
        rewrite (has_ms_stored_other _ Grow _ _ Basis) by discriminate.
        rewrite (has_ms_stored_other _ Grow _ _ Shrink) by discriminate.
        destruct B4 as [-> ->]; split; reflexivity.
      + destruct (K p); [|exact R7]. destruct x; exact R7.
    - destruct (reset_ok st (resets s) c) as (G1 & B1 & R1);
        [destruct s; repeat constructor|assumption|assumption|assumption|].
      assert (F : field_allowed s p).
      { destruct s, p; cbn in Al |- *; try discriminate Al; tauto. }
      destruct (set_ok _ s v p c G1 B1 R1 F) as (G2 & B2 & R2).
      { intros ->; exists (DOne x v p); split; [exact I|split; [reflexivity|]].
        cbn [gives]; rewrite slot_eqb_refl; reflexivity. }
      { destruct s, p; cbn in Al |- *; try discriminate Al;
          first [left; reflexivity | right; split; [|split]; discriminate]. }
      split; [exact G2|split; [exact B2|]].
      cbn [gives]. destruct (K p), (slot_eqb x s); exact R2.
    - split; [exact good_none|split; [exact balanced_none|]].
      pose proof (flush_rel st c G B R) as R'; unfold rel in *; cbn [fst snd no_fields val] in *.
      rewrite List.app_assoc, casc_app, <- R', casc_one; cbn [prefix_of].
      rewrite known_only; reflexivity.
  Qed.

  Lemma block_value :
    readable l -> casc (run T l) None = source_value K l x.
  Proof.
    intros Re.
    assert (A : forall m st c, (forall d, In d m -> In d l) -> readable m ->
      good (fst st) -> balanced (fst st) -> rel st c ->
      let st' := fold_left (handle T) m st in
      good (fst st') /\ balanced (fst st')
      /\ rel st' (last_value (fun d => written_with d K) (fun d => gives d x) m c)).
    { intros m; induction m as [|d m IH]; intros st c In' Rm G B R; cbn zeta.
      - cbn; intuition.
      - inversion Rm as [|d0 m0 Hd Hm Eq]; subst d0 m0.
        destruct (handle_ok st d c (In' d (or_introl eq_refl)) Hd G B R) as (G' & B' & R').
        cbn [fold_left last_value].
        exact (IH _ _ (fun e He => In' e (or_intror He)) Hm G' B' R'). }
    destruct (A l (no_fields, []) None (fun d H => H) Re good_none balanced_none eq_refl)
      as (G & B & R).
    unfold run. set (st := fold_left (handle T) l (no_fields, [])) in *.
    pose proof (flush_rel st _ G B R) as R'; unfold rel in R'; cbn [fst snd no_fields val] in R'.
    symmetry; exact R'.
  Qed.
End Block.
