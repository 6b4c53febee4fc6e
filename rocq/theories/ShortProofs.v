(** * The generic shorthand handlers keep used values *)
From Coq Require Import List Bool PeanoNat Lia.
From Verif Require Import ShortModel ShortSpec.
Import ListNotations.

Section Values.
Variable V R Cond W X : Type.
Variable n : nat.
Variable compat : V -> bool.
Variable fallback_key : option nat.
Variable fallbacks : V -> list V * V.
Variable raw_fallbacks : R -> list (Cond * R) * R.
Variable br : browser V R W X.
Notation decl := (decl V R).
Notation event := (event V R Cond).
Notation state := (state V).
Notation flush := (flush V R Cond n fallback_key fallbacks).
Notation handle := (handle V R Cond n compat fallback_key fallbacks raw_fallbacks).
Notation handle_all := (handle_all V R Cond n compat fallback_key fallbacks raw_fallbacks).
Notation minify := (minify V R Cond n compat fallback_key fallbacks raw_fallbacks).
Notation long_fallbacks := (long_fallbacks V fallback_key fallbacks).
Notation short_fallbacks := (short_fallbacks V fallback_key fallbacks).
Notation flush_longs := (flush_longs V R Cond fallback_key fallbacks).
Notation env := (nat -> option (cell W X)).
Hypothesis n_pos : 0 < n.
Hypothesis br_compat : forall v, compat v = true -> knows br v = true.
(** Either the browser knows the value, or no fallback is generated *)
Hypothesis br_fallbacks : forall v, fst (fallbacks v) = [] \/ knows br v = true.
Hypothesis br_same : forall v, knows br (snd (fallbacks v)) = knows br v /\ value br (snd (fallbacks v)) = value br v.

Definition give (d : decl) (e : env) : env :=
  fun k => if accepts n br d then match gives br d k with Some c => Some c | None => e k end else e k.
Fixpoint give_all (l : list decl) (e : env) : env := match l with [] => e | d :: r => give_all r (give d e) end.
Lemma used_give l : forall e k, used_from (e k) n br l k = give_all l e k.
Proof. induction l as [|d r IH]; intros e k; [reflexivity|]. cbn [used_from give_all]. rewrite <- IH. reflexivity. Qed.
Definition eqn (e e' : env) : Prop := forall k, k < n -> e k = e' k.
Lemma eqn_refl e : eqn e e. Proof. intros k _. reflexivity. Qed.
Lemma eqn_trans a b c : eqn a b -> eqn b c -> eqn a c.
Proof. intros H1 H2 k H. rewrite (H1 k H). apply (H2 k H). Qed.
Lemma eqn_sym a b : eqn a b -> eqn b a. Proof. intros H k L. symmetry. apply H. exact L. Qed.
Lemma give_ext d e e' : eqn e e' -> eqn (give d e) (give d e').
Proof. intros H k L. unfold give. rewrite (H k L). reflexivity. Qed.
Lemma give_all_ext l : forall e e', eqn e e' -> eqn (give_all l e) (give_all l e').
Proof. induction l as [|d r IH]; intros e e' H; [exact H|]. cbn [give_all]. apply IH. apply give_ext. exact H. Qed.
Lemma give_all_app l m e : give_all (l ++ m) e = give_all m (give_all l e).
Proof. revert e. induction l as [|d r IH]; intros e; [reflexivity|]. apply IH. Qed.

Definition run (l : list event) (e : env) : env := give_all (mains l) e.
Lemma mains_app (l m : list event) : mains (l ++ m) = mains l ++ mains m.
Proof. unfold mains. apply flat_map_app. Qed.
Lemma run_app l m e : run (l ++ m) e = run m (run l e).
Proof. unfold run. rewrite mains_app. apply give_all_app. Qed.
Lemma run_ext l e e' : eqn e e' -> eqn (run l e) (run l e').
Proof. apply give_all_ext. Qed.

Definition slot (o : option V) (c : option (cell W X)) : option (cell W X) :=
  match o with Some v => if knows br v then Some (CVal (value br v)) else c | None => c end.
Definition mean (s : nat -> option V) (e : env) : env := fun k => slot (s k) (e k).
Lemma mean_ext s e e' : eqn e e' -> eqn (mean s e) (mean s e').
Proof. intros H k L. unfold mean. rewrite (H k L). reflexivity. Qed.

(** ** Flushing *)
Lemma long_same k v : knows br (snd (long_fallbacks k v)) = knows br v /\ value br (snd (long_fallbacks k v)) = value br v.
Proof. unfold long_fallbacks. destruct fallback_key as [j|]; [destruct (Nat.eqb j k); [apply br_same|]|]; split; reflexivity. Qed.
Lemma long_none k v : fst (long_fallbacks k v) = [] \/ knows br v = true.
Proof. unfold long_fallbacks. destruct fallback_key as [j|]; [destruct (Nat.eqb j k); [apply br_fallbacks|]|]; left; reflexivity. Qed.

(** Declarations of one longhand, the last of which the browser knows, or there is only one *)
Lemma run_long k (l : list V) v e j :
  (l = [] \/ knows br v = true) ->
  run (map (fun x => Main (DLong k x)) l ++ [Main (DLong k v)]) e j = if Nat.eqb k j then slot (Some v) (e j) else e j.
Proof.
  intros H. rewrite run_app. unfold run at 1. cbn [mains flat_map app give_all]. unfold give. cbn [accepts gives slot].
  assert (E : Nat.eqb k j = false -> run (map (fun x => Main (DLong k x)) l) e j = e j).
  { intros Hk. clear H. revert e. induction l as [|a r IH]; intros e; [reflexivity|]. unfold run in *. cbn [map mains flat_map app give_all].
    change (flat_map _ (map (fun x => Main (DLong k x)) r)) with (@mains V R Cond (map (fun x => Main (DLong k x)) r)).
    rewrite IH. unfold give. cbn [accepts gives]. rewrite Hk. destruct (knows br a); reflexivity. }
  destruct (Nat.eqb k j); [|rewrite E by reflexivity; destruct (knows br v); reflexivity].
  destruct H as [-> | H]; [|rewrite H; reflexivity]. reflexivity.
Qed.
Lemma flush_longs_run ks : NoDup ks -> forall s fl e j,
  run (snd (flush_longs ks s fl)) e j = if in_dec Nat.eq_dec j ks then slot (s j) (e j) else e j.
Proof.
  induction ks as [|k r IH]; intros D s fl e j; [reflexivity|]. inversion D as [|? ? N D']; subst. cbn [ShortModel.flush_longs].
  assert (Hin : forall o : option (cell W X), (if in_dec Nat.eq_dec j (k :: r) then o else e j) = if Nat.eqb k j then o else if in_dec Nat.eq_dec j r then o else e j).
  { intros o. destruct (Nat.eqb k j) eqn:E; destruct (in_dec Nat.eq_dec j (k :: r)) as [I|I]; try reflexivity.
    - apply Nat.eqb_eq in E. subst. exfalso. apply I. left. reflexivity.
    - apply Nat.eqb_neq in E. destruct (in_dec Nat.eq_dec j r) as [I'|I']; [reflexivity|]. destruct I as [I|I]; contradiction.
    - destruct (in_dec Nat.eq_dec j r) as [I'|I']; [|reflexivity]. exfalso. apply I. right. exact I'. }
  rewrite Hin. destruct (s k) as [v|] eqn:Es.
  - set (p := if fl (Some k) then _ else _). assert (P : knows br (snd p) = knows br v /\ value br (snd p) = value br v /\ (fst p = [] \/ knows br v = true)).
    { unfold p. destruct (fl (Some k)); [repeat split; left; reflexivity|]. destruct (long_same k v). split; [assumption|]. split; [assumption|]. apply long_none. }
    destruct p as [l v']. cbn [fst snd] in P. destruct P as [P1 [P2 P3]].
    specialize (IH D' s (mark (Some k) fl)). destruct (flush_longs r s (mark (Some k) fl)) as [fl' ev]. cbn [snd] in *.
    replace (map (fun x => Main (DLong k x)) l ++ Main (DLong k v') :: ev) with ((map (fun x => Main (DLong k x)) l ++ [Main (DLong k v')]) ++ ev) by (rewrite <- app_assoc; reflexivity).
    rewrite run_app, IH. rewrite run_long by (rewrite P1; exact P3). destruct (Nat.eqb k j) eqn:E.
    + apply Nat.eqb_eq in E. subst j. destruct (in_dec Nat.eq_dec k r) as [I|I]; [contradiction|]. rewrite Es. cbn [slot]. rewrite P1, P2. reflexivity.
    + reflexivity.
  - rewrite IH by assumption. destruct (Nat.eqb k j) eqn:E; [|reflexivity]. apply Nat.eqb_eq in E. subst j.
    destruct (in_dec Nat.eq_dec k r) as [I|I]; [contradiction|]. rewrite Es. reflexivity.
Qed.

Lemma collect_some ks s f : NoDup ks -> collect V ks s = Some f -> forall k, In k ks -> s k = Some (f k).
Proof.
  revert f. induction ks as [|a r IH]; intros f D H k I; [destruct I|]. inversion D as [|? ? N D']; subst. destruct r as [|b r].
  - cbn in H. destruct (s a) as [v|] eqn:E; [|discriminate H]. injection H as <-. destruct I as [<- |[]]. exact E.
  - change (collect V (a :: b :: r) s) with (match s a, collect V (b :: r) s with Some v, Some f => Some (upd a v f) | _, _ => None end) in H.
    destruct (s a) as [v|] eqn:E; [|discriminate H]. destruct (collect V (b :: r) s) as [g|] eqn:E'; [|discriminate H]. injection H as <-.
    unfold upd. destruct I as [<- |I]; [rewrite Nat.eqb_refl; exact E|]. destruct (Nat.eqb a k) eqn:Ek; [|apply IH; [assumption|reflexivity|exact I]].
    apply Nat.eqb_eq in Ek. subst. contradiction.
Qed.

Lemma accepts_all f : (forall k, k < n -> knows br (f k) = true) -> accepts n br (DShort f : decl) = true.
Proof. intros H. cbn [accepts]. apply forallb_forall. intros k I. apply in_seq in I. apply H. lia. Qed.
Lemma accepts_first f : (forall j k, j < n -> k < n -> knows br (f j) = knows br (f k)) ->
  forall k, k < n -> accepts n br (DShort f : decl) = knows br (f k).
Proof.
  intros H k L. destruct (knows br (f k)) eqn:E.
  - apply accepts_all. intros j Lj. rewrite (H j k Lj L). exact E.
  - cbn [accepts]. destruct (forallb _ _) eqn:F; [|reflexivity]. rewrite forallb_forall in F. rewrite <- E. symmetry. apply F. apply in_seq. lia.
Qed.

(** What is flushed is what the slots mean *)
Lemma flush_run s e : Forall (uniform n br) (mains (snd (flush s))) ->
  (has_any s = false -> forall k, k < n -> slots s k = None) ->
  eqn (run (snd (flush s)) e) (mean (slots s) e) /\ (forall k, k < n -> slots (fst (flush s)) k = None) /\ has_any (fst (flush s)) = false.
Proof.
  unfold ShortModel.flush. destruct (has_any s) eqn:Ea.
  2:{ intros _ N. cbn [fst snd]. split; [|split; [apply N; reflexivity|exact Ea]]. intros k L. unfold mean. rewrite (N eq_refl k L). reflexivity. }
  intros U _. destruct (collect V (seq 0 n) (slots s)) as [f|] eqn:Ec.
  - set (p := if flushed s None then _ else _) in *.
    assert (P : forall k, knows br (snd p k) = knows br (f k) /\ value br (snd p k) = value br (f k)).
    { intros k. unfold p. destruct (flushed s None); [split; reflexivity|]. unfold short_fallbacks. destruct fallback_key as [j|]; [|split; reflexivity].
      pose proof (br_same (f j)) as [H1 H2]. destruct (fallbacks (f j)) as [l v]. cbn [snd] in *. unfold upd. destruct (Nat.eqb j k) eqn:E; [|split; reflexivity].
      apply Nat.eqb_eq in E. subst. split; assumption. }
    assert (Q : fst p = [] \/ exists j, (forall g, In g (fst p) -> True) /\ knows br (f j) = true /\ fallback_key = Some j).
    { unfold p. destruct (flushed s None); [left; reflexivity|]. unfold short_fallbacks. destruct fallback_key as [j|]; [|left; reflexivity].
      destruct (br_fallbacks (f j)) as [H|H].
      - left. destruct (fallbacks (f j)) as [l v]. cbn [fst] in *. rewrite H. reflexivity.
      - right. exists j. repeat split. exact H. }
    destruct p as [l f'] eqn:Ep. cbn [fst snd] in *. split; [|split; [reflexivity|reflexivity]].
    assert (U' : uniform n br (DShort f' : decl)).
    { rewrite mains_app in U. apply Forall_app in U. destruct U as [_ U]. cbn in U. apply (Forall_inv U). }
    pose proof (collect_some _ _ _ (seq_NoDup n 0) Ec) as S1.
    assert (Hacc : forall k, k < n -> accepts n br (DShort f' : decl) = knows br (f k)).
    { intros k L. rewrite (accepts_first f' U' k L). apply P. }
    assert (Hl : run (map (fun x => Main (DShort x)) l) e = e \/ (forall k, k < n -> knows br (f k) = true)).
    { destruct Q as [-> | [j [_ [Hj Hf]]]]; [left; reflexivity|].
      destruct (Nat.ltb j n) eqn:Lj.
      - right. apply Nat.ltb_lt in Lj. intros k L. rewrite <- (Hacc k L), (Hacc j Lj). exact Hj.
      - (* the fallback longhand does not exist: only the meaning matters *) apply Nat.ltb_ge in Lj.
        destruct (accepts n br (DShort f' : decl)) eqn:A; [right; intros k L; rewrite <- (Hacc k L); reflexivity|].
        left. unfold p in Ep. destruct (flushed s None); [injection Ep as <- _; reflexivity|]. unfold short_fallbacks in Ep. rewrite Hf in Ep.
        destruct (fallbacks (f j)) as [l0 v0]. injection Ep as <- <-.
        assert (B : forall x, accepts n br (DShort (upd j x f) : decl) = false).
        { intros x. rewrite <- A. cbn [accepts]. apply eq_true_iff_eq. rewrite !forallb_forall. unfold upd.
          split; intros F k I; specialize (F k I); apply in_seq in I; (destruct (Nat.eqb j k) eqn:E; [apply Nat.eqb_eq in E; lia|exact F]). }
        clear -B. unfold run. induction l0 as [|a r IH]; [reflexivity|]. cbn [map mains flat_map app give_all].
        replace (give (DShort (upd j a f)) e) with e; [exact IH|]. unfold give. rewrite B. reflexivity. }
    intros k L. rewrite run_app. unfold run at 1. cbn [mains flat_map app give_all]. unfold give. rewrite (Hacc k L). cbn [gives].
    unfold mean. rewrite (S1 k) by (apply in_seq; lia). cbn [slot].
    destruct (P k) as [_ Pv]. destruct (knows br (f k)) eqn:Ek; [rewrite Pv; reflexivity|]. destruct Hl as [-> | Hl]; [reflexivity|]. rewrite (Hl k L) in Ek. discriminate Ek.
  - pose proof (flush_longs_run (seq 0 n) (seq_NoDup n 0) (slots s) (flushed s) e) as H.
    destruct (flush_longs (seq 0 n) (slots s) (flushed s)) as [fl ev]. cbn [fst snd] in *. split; [|split; reflexivity].
    intros k L. rewrite H. destruct (in_dec Nat.eq_dec k (seq 0 n)) as [I|I]; [reflexivity|]. exfalso. apply I. apply in_seq. lia.
Qed.

Definition inv (s : state) : Prop := has_any s = false -> forall k, k < n -> slots s k = None.
Definition cleared (s : state) : Prop := forall k, k < n -> slots s k = None.

Lemma then_app p f : snd (then_ V R Cond p f) = snd p ++ snd (f (fst p)) /\ fst (then_ V R Cond p f) = fst (f (fst p)).
Proof. destruct p as [s e]. unfold then_. cbn [fst snd]. destruct (f s) as [s' e']. split; reflexivity. Qed.
Lemma uni_app (l m : list event) : Forall (uniform n br) (mains (l ++ m)) -> Forall (uniform n br) (mains l) /\ Forall (uniform n br) (mains m).
Proof. rewrite mains_app. intros H. apply Forall_app in H. exact H. Qed.

(** A conditional flush: the state either did not change, or is empty *)
Lemma maybe_flush_run k v s e : inv s -> Forall (uniform n br) (mains (snd (maybe_flush V R Cond n compat fallback_key fallbacks k v s))) ->
  let p := maybe_flush V R Cond n compat fallback_key fallbacks k v s in
  inv (fst p) /\ eqn (mean (slots (fst p)) (run (snd p) e)) (mean (slots s) e)
  /\ (slots (fst p) k = None \/ compat v = true \/ n <= k)
  /\ (cleared (fst p) \/ fst p = s).
Proof.
  intros I U. unfold maybe_flush in *. cbn zeta. destruct (is_some (slots s k) && negb (compat v)) eqn:E.
  - pose proof (flush_run s e U I) as [H1 [H2 H3]]. split; [intros _; exact H2|]. split; [|split].
    + intros j L. unfold mean at 1. rewrite (H2 j L). apply H1. exact L.
    + destruct (Nat.ltb k n) eqn:L; [left; apply H2; apply Nat.ltb_lt; exact L | right; right; apply Nat.ltb_ge; exact L].
    + left. exact H2.
  - cbn [fst snd]. split; [exact I|]. split; [apply eqn_refl|]. split; [|right; reflexivity].
    destruct (slots s k); [|left; reflexivity]. right. left. cbn in E. destruct (compat v); [reflexivity|discriminate E].
Qed.
Lemma maybe_flush_all_run ks f : forall s e, inv s -> Forall (uniform n br) (mains (snd (maybe_flush_all V R Cond n compat fallback_key fallbacks ks f s))) ->
  let p := maybe_flush_all V R Cond n compat fallback_key fallbacks ks f s in
  inv (fst p) /\ eqn (mean (slots (fst p)) (run (snd p) e)) (mean (slots s) e)
  /\ (forall k, In k ks -> k < n -> slots (fst p) k = None \/ compat (f k) = true)
  /\ (cleared (fst p) \/ fst p = s).
Proof.
  induction ks as [|k r IH]; intros s e I U; cbn zeta in *; cbn [maybe_flush_all] in *.
  - cbn [fst snd]. split; [exact I|]. split; [apply eqn_refl|]. split; [intros k []|right; reflexivity].
  - destruct (then_app (maybe_flush V R Cond n compat fallback_key fallbacks k (f k) s) (maybe_flush_all V R Cond n compat fallback_key fallbacks r f)) as [E1 E2].
    rewrite E1 in *. rewrite E2. apply uni_app in U. destruct U as [U1 U2].
    destruct (maybe_flush_run k (f k) s e I U1) as [I1 [M1 [C1 D1]]].
    set (p := maybe_flush V R Cond n compat fallback_key fallbacks k (f k) s) in *.
    destruct (IH (fst p) (run (snd p) e) I1 U2) as [I2 [M2 [C2 D2]]]. split; [exact I2|]. split; [|split].
    + rewrite run_app. eapply eqn_trans; [exact M2|exact M1].
    + intros j [<- |Ij] L; [|apply C2; assumption]. destruct D2 as [D2| ->]; [left; apply D2; exact L|]. destruct C1 as [C|[C|C]]; [left; exact C|right; exact C|lia].
    + destruct D2 as [D2|D2]; [left; exact D2|]. rewrite D2. exact D1.
Qed.

(** ** One declaration *)
Hypothesis raw_none : forall u, fst (raw_fallbacks u) = [] ->
  knows_raw br (snd (raw_fallbacks u)) = knows_raw br u /\ tokens br (snd (raw_fallbacks u)) = tokens br u.

Lemma supports_map k (l : list (Cond * R)) : mains (map (fun cu => Support (fst cu) (DRaw k (snd cu))) l : list event) = [].
Proof. induction l as [|a r IH]; [reflexivity|exact IH]. Qed.
Lemma supports_app (l m : list event) : supports (l ++ m) = supports l ++ supports m.
Proof. unfold supports. apply flat_map_app. Qed.

Lemma handle_run s d e : inv s -> wf n d -> uniform n br d -> Forall (uniform n br) (mains (snd (handle s d))) -> supports (snd (handle s d)) = [] ->
  inv (fst (handle s d)) /\ eqn (mean (slots (fst (handle s d))) (run (snd (handle s d)) e)) (give d (mean (slots s) e)).
Proof.
  intros I Hw Hu U N. destruct d as [k v|f|k u]; cbn [ShortModel.handle] in *.
  - set (q := fun s : state => _) in *. destruct (then_app (maybe_flush V R Cond n compat fallback_key fallbacks k v s) q) as [E1 E2]. rewrite E1, E2 in *.
    apply uni_app in U. destruct U as [U1 _]. destruct (maybe_flush_run k v s e I U1) as [I1 [M1 [C1 _]]].
    set (p := maybe_flush V R Cond n compat fallback_key fallbacks k v s) in *. unfold q. cbn [fst snd slots has_any]. rewrite app_nil_r.
    split; [intros H; discriminate H|]. intros j L. pose proof (M1 j L) as M. unfold mean in *. unfold upd, give. cbn [accepts gives].
    destruct (Nat.eqb k j) eqn:E; [|rewrite M; destruct (knows br v); reflexivity]. apply Nat.eqb_eq in E. subst j. cbn [slot].
    destruct (knows br v) eqn:K; [reflexivity|]. rewrite <- M. destruct C1 as [-> |[C|C]]; [reflexivity| |lia]. apply br_compat in C. congruence.
  - set (q := fun s : state => _) in *. destruct (then_app (maybe_flush_all V R Cond n compat fallback_key fallbacks (seq 0 n) f s) q) as [E1 E2]. rewrite E1, E2 in *.
    apply uni_app in U. destruct U as [U1 _]. destruct (maybe_flush_all_run (seq 0 n) f s e I U1) as [I1 [M1 [C1 _]]].
    set (p := maybe_flush_all V R Cond n compat fallback_key fallbacks (seq 0 n) f s) in *. unfold q. cbn [fst snd slots has_any]. rewrite app_nil_r.
    split; [intros H; discriminate H|]. intros j L. pose proof (M1 j L) as M. unfold mean in *. unfold give. rewrite (accepts_first f Hu j L). cbn [gives slot].
    destruct (knows br (f j)) eqn:K; [reflexivity|]. rewrite <- M. destruct (C1 j) as [-> |C]; [apply in_seq; lia|exact L|reflexivity|]. apply br_compat in C. congruence.
  - set (q := fun s : state => _) in *. destruct (then_app (flush s) q) as [E1 E2]. rewrite E1, E2 in *. apply uni_app in U. destruct U as [U1 _].
    destruct (flush_run s e U1 I) as [M1 [C1 A1]]. rewrite supports_app in N. apply app_eq_nil in N. destruct N as [_ N].
    set (p := flush s) in *. unfold q in *. pose proof (raw_none u) as Rn. destruct (raw_fallbacks u) as [l u'] eqn:Er. cbn [fst snd slots has_any] in *.
    assert (l = []) as -> by (destruct l; [reflexivity|discriminate N]). destruct (Rn eq_refl) as [R1 R2].
    split; [intros _; exact C1|]. intros j L. rewrite run_app. unfold mean. rewrite (C1 j L). cbn [slot map app]. unfold run at 1. cbn [mains flat_map app give_all].
    unfold give. cbn [accepts]. rewrite R1. cbn [gives]. rewrite R2. pose proof (M1 j L) as M. unfold mean in M. destruct k as [k|]; [destruct (Nat.eqb k j)|];
      destruct (knows_raw br u); try reflexivity; exact M.
Qed.

Lemma handle_all_run l : forall s e, inv s -> Forall (wf n) l -> Forall (uniform n br) l -> Forall (uniform n br) (mains (snd (handle_all s l))) ->
  supports (snd (handle_all s l)) = [] ->
  inv (fst (handle_all s l)) /\ eqn (mean (slots (fst (handle_all s l))) (run (snd (handle_all s l)) e)) (give_all l (mean (slots s) e)).
Proof.
  induction l as [|d r IH]; intros s e I Hw Hu U N; cbn [ShortModel.handle_all] in *.
  - split; [exact I|]. apply eqn_refl.
  - destruct (then_app (handle s d) (fun s => handle_all s r)) as [E1 E2]. rewrite E1, E2 in *. apply uni_app in U. destruct U as [U1 U2].
    rewrite supports_app in N. apply app_eq_nil in N. destruct N as [N1 N2].
    destruct (handle_run s d e I (Forall_inv Hw) (Forall_inv Hu) U1 N1) as [I1 M1].
    destruct (IH _ (run (snd (handle s d)) e) I1 (Forall_inv_tail Hw) (Forall_inv_tail Hu) U2 N2) as [I2 M2].
    split; [exact I2|]. rewrite run_app. eapply eqn_trans; [exact M2|]. cbn [give_all]. apply give_all_ext. exact M1.
Qed.

Theorem minify_used l : Forall (wf n) l -> Forall (uniform n br) l -> Forall (uniform n br) (mains (minify l)) -> supports (minify l) = [] ->
  forall k o, k < n -> used_from o n br (mains (minify l)) k = used_from o n br l k.
Proof.
  intros Hw Hu U N k o L. unfold ShortModel.minify in *. destruct (then_app (handle_all start l) flush) as [E1 _]. rewrite E1 in *.
  apply uni_app in U. destruct U as [U1 U2]. rewrite supports_app in N. apply app_eq_nil in N. destruct N as [N1 _].
  assert (I0 : inv (start : state)) by (intros _ j _; reflexivity).
  destruct (handle_all_run l start (fun _ => o) I0 Hw Hu U1 N1) as [I1 M1].
  destruct (flush_run (fst (handle_all start l)) (run (snd (handle_all start l)) (fun _ => o)) U2 I1) as [M2 _].
  pose proof (fun m => used_give m (fun _ => o) k) as G. cbn beta in G. rewrite !G.
  change (run (snd (handle_all start l) ++ snd (flush (fst (handle_all start l)))) (fun _ => o) k = give_all l (fun _ => o) k). rewrite run_app.
  rewrite (M2 k L), (M1 k L). apply give_all_ext; [|exact L]. apply eqn_refl.
Qed.
End Values.

Lemma modern_uniform V R W X n (br : browser V R W X) l : modern br -> Forall (uniform n br) l.
Proof. intros [H _]. apply Forall_forall. intros d _. destruct d as [k v|f|k u]; cbn; auto. intros j k _ _. rewrite !H. reflexivity. Qed.

(** ** An unparsed declaration with fallbacks at the end *)
Section Trailing.
Variable V R Cond W X : Type.
Variable n : nat.
Variable compat : V -> bool.
Variable fallback_key : option nat.
Variable fallbacks : V -> list V * V.
Variable raw_fallbacks : R -> list (Cond * R) * R.
Variable br : browser V R W X.
Variable holds : Cond -> bool.
Notation minify := (minify V R Cond n compat fallback_key fallbacks raw_fallbacks).
Notation handle_all := (handle_all V R Cond n compat fallback_key fallbacks raw_fallbacks).

Lemma used_from_app o (l m : list (decl V R)) k : used_from o n br (l ++ m) k = used_from (used_from o n br l k) n br m k.
Proof. revert o. induction l as [|d r IH]; intros o; [reflexivity|]. cbn [app used_from]. apply IH. Qed.
Lemma handle_all_app l m s : handle_all s (l ++ m) = then_ V R Cond (handle_all s l) (fun s => handle_all s m).
Proof.
  revert s. induction l as [|d r IH]; intros s; cbn [app ShortModel.handle_all].
  - unfold then_. destruct (handle_all s m). reflexivity.
  - unfold then_ at 1 3. destruct (handle _ _ _ _ _ _ _ _ _ _) as [s1 e1]. rewrite IH. unfold then_. destruct (handle_all s1 r) as [s2 e2].
    destruct (handle_all s2 m) as [s3 e3]. rewrite app_assoc. reflexivity.
Qed.
Lemma trailing_events l k u :
  minify (l ++ [DRaw k u]) = minify l ++ map (fun cu => Support (fst cu) (DRaw k (snd cu))) (fst (raw_fallbacks u)) ++ [Main (DRaw k (snd (raw_fallbacks u)))].
Proof.
  unfold ShortModel.minify. rewrite handle_all_app. cbn [ShortModel.handle_all ShortModel.handle]. unfold then_. destruct (handle_all start l) as [s e].
  assert (A : has_any (fst (flush V R Cond n fallback_key fallbacks s)) = false).
  { unfold flush. destruct (has_any s) eqn:E; [|exact E]. destruct (collect V _ _).
    - destruct (if flushed s None then _ else _). reflexivity.
    - destruct (flush_longs _ _ _ _ _ _ _ _). reflexivity. }
  destruct (flush V R Cond n fallback_key fallbacks s) as [s1 e1] eqn:Ef. cbn [fst] in A. destruct (raw_fallbacks u) as [ls u']. cbn [fst snd]. unfold flush. cbn [has_any]. rewrite A. cbn [snd]. rewrite !app_nil_r, !app_assoc. reflexivity.
Qed.
Lemma last_cons_default (r : list R) : forall u u2, last r u2 = last (u2 :: r) u.
Proof. induction r as [|a r IH]; intros u u2; [reflexivity|]. change (last (u2 :: a :: r) u) with (last (a :: r) u). rewrite <- !IH. reflexivity. Qed.
Lemma used_raws k j (us : list R) : (forall u, knows_raw br u = true) -> forall o,
  used_from o n br (map (DRaw k) us) j
  = match us with [] => o | u :: r => match gives br (DRaw k (last r u) : decl V R) j with Some c => Some c | None => o end end.
Proof.
  intros K. induction us as [|u r IH]; intros o; [reflexivity|]. cbn [map used_from]. rewrite IH. cbn [accepts]. rewrite K.
  destruct r as [|u2 r]; [reflexivity|]. replace (last (u2 :: r) u) with (last r u2).
  - destruct (gives br (DRaw k (last r u2)) j) eqn:E; [reflexivity|]. cbn [gives] in *. destruct k as [i|]; [|discriminate E].
    destruct (Nat.eqb i j); [discriminate E|reflexivity].
  - apply last_cons_default.
Qed.
Lemma mains_supports k (l : list (Cond * R)) : mains (map (fun cu => Support (fst cu) (DRaw k (snd cu))) l : list (event V R Cond)) = [].
Proof. induction l as [|a r IH]; [reflexivity|exact IH]. Qed.
Lemma supports_supports k (l : list (Cond * R)) :
  supports (map (fun cu => Support (fst cu) (DRaw k (snd cu))) l : list (event V R Cond)) = map (fun cu => (fst cu, DRaw k (snd cu))) l.
Proof. induction l as [|a r IH]; [reflexivity|]. cbn [map supports flat_map app]. f_equal. exact IH. Qed.
Lemma active_map k (l : list (Cond * R)) :
  active holds (map (fun cu => (fst cu, DRaw k (snd cu) : decl V R)) l) = map (DRaw k) (map snd (filter (fun x => holds (fst x)) l)).
Proof. unfold active. induction l as [|a r IH]; [reflexivity|]. cbn [map filter fst]. destruct (holds (fst a)); cbn [map snd]; rewrite IH; reflexivity. Qed.

Hypothesis n_pos : 0 < n.
Hypothesis br_modern : modern br.
Hypothesis br_same : forall v, value br (snd (fallbacks v)) = value br v.
Hypothesis seen : forall u, tokens br (seen_tokens holds (raw_fallbacks u)) = tokens br u.
Theorem trailing_used l k u : Forall (wf n) l -> supports (minify l) = [] ->
  let out := minify (l ++ [DRaw k u]) in
  forall j, j < n -> used n br (mains out ++ active holds (supports out)) j = used n br (l ++ [DRaw k u]) j.
Proof.
  intros Hw N out j L. destruct br_modern as [K1 K2].
  assert (Hm : used n br (mains (minify l)) j = used n br l j).
  { apply minify_used; try assumption; try (apply modern_uniform; exact br_modern).
    - intros v _. apply K1.
    - intros v. right. apply K1.
    - intros v. split; [rewrite !K1; reflexivity|apply br_same].
    - intros u0 E. split; [rewrite !K2; reflexivity|]. rewrite <- (seen u0). unfold seen_tokens. rewrite E. reflexivity. }
  unfold out. rewrite trailing_events. rewrite !mains_app, !supports_app, mains_supports, supports_supports, N. cbn [app mains supports flat_map].
  rewrite app_nil_r, active_map. unfold used in *. rewrite <- app_assoc. rewrite !used_from_app, Hm.
  change (used_from (used_from (used_from None n br l j) n br [DRaw k (snd (raw_fallbacks u))] j) n br (map (DRaw k) ?m) j)
    with (used_from (used_from None n br l j) n br (map (DRaw k) (snd (raw_fallbacks u) :: m)) j).
  change [DRaw k u : decl V R] with (map (DRaw k : R -> decl V R) [u]). rewrite !used_raws by exact K2. cbn [last].
  pose proof (seen u) as S1. unfold seen_tokens in S1. cbn [gives]. rewrite S1. reflexivity.
Qed.
End Trailing.

(** ** The overflow and gap handlers *)
Section Pairs.
Variable V R W X : Type.
Variable veq : V -> V -> bool.
Variable two_values two : bool.
Variable br : browser V R W X.
Hypothesis veq_eq : forall a b, veq a b = true -> a = b.
Hypothesis K : modern br.
Hypothesis two_two : two_values = true -> two = true.
Definition pmean (s : pair_state V) (k : nat) (o : option (cell W X)) : option (cell W X) :=
  match (if Nat.eqb k 0 then fst_slot s else snd_slot s) with Some v => Some (CVal (value br v)) | None => o end.
Notation finalize := (pair_finalize V R veq two_values).
Lemma accepts_modern n (d : decl V R) : accepts n br d = true.
Proof. destruct K as [K1 K2]. destruct d; cbn; auto. apply forallb_forall. auto. Qed.
Lemma pair_finalize_used s k o : k < 2 -> used_from o 2 br (finalize s) k = pmean s k o.
Proof.
  intros L. destruct s as [x y]. unfold pair_finalize, pmean. cbn [fst_slot snd_slot].
  destruct x as [x|], y as [y|]; cbn [oevent app]; [destruct (veq x y || two_values)| | |]; cbn [used_from]; rewrite ?accepts_modern; cbn [gives];
    destruct k as [|[|k]]; cbn [Nat.eqb]; try reflexivity; lia.
Qed.
Lemma pair_finalize_understood s : Forall (understood two) (finalize s).
Proof.
  destruct s as [x y]. unfold pair_finalize. cbn [fst_slot snd_slot]. destruct x as [x|], y as [y|]; cbn [oevent app]; try (repeat constructor).
  destruct (veq x y || two_values) eqn:E; [constructor; [|constructor]|repeat constructor]. cbn. apply orb_true_iff in E. destruct E as [E|E]; [right; apply veq_eq; exact E|left; auto].
Qed.
Lemma pair_minify_used l : Forall (wf 2) l -> forall s k o, k < 2 -> used_from o 2 br (pair_minify V R veq two_values s l) k = used_from (pmean s k o) 2 br l k.
Proof.
  induction l as [|d r IH]; intros Hw s k o L; cbn [pair_minify used_from]; [apply pair_finalize_used; exact L|]. rewrite accepts_modern.
  pose proof (Forall_inv Hw) as Hd. pose proof (Forall_inv_tail Hw) as Hr. destruct d as [j v|f|j u]; cbn [pair_handle wf] in *.
  - destruct j as [|[|j]]; [| |lia]; cbn [app]; rewrite IH by assumption; f_equal; unfold pmean; cbn [gives fst_slot snd_slot]; destruct k as [|[|k]]; cbn [Nat.eqb]; try reflexivity; lia.
  - cbn [app]. rewrite IH by assumption. f_equal. unfold pmean. cbn [gives fst_slot snd_slot]. destruct k as [|[|k]]; cbn [Nat.eqb]; try reflexivity; lia.
  - rewrite used_from_app, IH by assumption. rewrite used_from_app, pair_finalize_used by exact L. cbn [used_from]. rewrite accepts_modern. unfold pmean at 1. cbn [fst_slot snd_slot].
    replace (if Nat.eqb k 0 then @None V else None) with (@None V) by (destruct (Nat.eqb k 0); reflexivity). reflexivity.
Qed.
Lemma pair_minify_understood l : Forall (understood two) l -> forall s, Forall (understood two) (pair_minify V R veq two_values s l).
Proof.
  induction l as [|d r IH]; intros H s; cbn [pair_minify]; [apply pair_finalize_understood|]. pose proof (Forall_inv H) as Hd. pose proof (Forall_inv_tail H) as Hr.
  destruct d as [j v|f|j u]; cbn [pair_handle]; try (destruct j); cbn [app]; try (apply IH; exact Hr);
    (apply Forall_app; split; [apply Forall_app; split; [apply pair_finalize_understood|repeat constructor]|apply IH; exact Hr]).
Qed.
End Pairs.
