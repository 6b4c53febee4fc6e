(** * Declaration blocks: [get] of longhands and [set] *)
From Coq Require Import List Bool String PeanoNat Lia.
From Verif Require Import VendorPrefixModel ShorthandTable DeclModel DeclSpec DeclProofs.
Import ListNotations.
Local Open Scope string_scope.
Local Open Scope list_scope.

Lemma vs_eqb_sym : forall a b, vs_eqb a b = vs_eqb b a.
Proof.
  intros a b. destruct (vs_eqb a b) eqn:E; destruct (vs_eqb b a) eqn:F; auto.
  - apply vs_eqb_iff in E. subst. rewrite vs_eqb_refl in F. discriminate.
  - apply vs_eqb_iff in F. subst. rewrite vs_eqb_refl in E. discriminate.
Qed.

(** For a regular longhand the check of the prefixes is the one of the specification. *)
Definition prefix_fits (i l : pid) : bool := match l with PVp _ p => vs_eqb p (prefix_of i) | _ => true end.
Lemma check_regular : forall i s l k n, find_sh i = Some s -> key_of l (sh_keys s) 0 = Some (k, n) -> regular l ->
    sh_vp s && negb (vs_eqb (pid_prefix i) (pid_prefix l)) = negb (prefix_fits i l).
Proof.
  intros i s l k n F K R. apply find_names in F as [T N].
  destruct (key_of_some _ _ _ _ _ K) as (g & x & _ & G & X & I & _). apply nth_error_In in G.
  apply lh_is_iff in I as [M V]. specialize (R s g x T G X M).
  destruct i as [m q|m| |m]; cbn in N; try tauto; destruct N as [N _]; rewrite N in *; cbn [andb pid_prefix prefix_of].
  - destruct R as [R|[R _]]; [|discriminate]. destruct l as [m' p|m'| |m']; try tauto; cbn [prefix_fits pid_prefix prefix_of]; try congruence.
    f_equal. apply vs_eqb_sym.
  - destruct l as [m' p|m'| |m']; try tauto; auto. cbn [prefix_fits prefix_of pid_prefix] in *.
    destruct R as [R|[_ R]]; [congruence|]. rewrite R. rewrite vs_eqb_refl. reflexivity.
Qed.
Lemma longhand_say : forall i vs l, regular l ->
    longhand (PShort i vs) l = match say (PShort i vs) l with Some (Value v) => Some (PLong l v) | _ => None end.
Proof.
  intros i vs l R. cbn [longhand say]. unfold say_short. destruct (find_sh i) as [s|] eqn:F; auto.
  unfold sh_longhand. destruct (key_of l (sh_keys s) 0) as [[k n]|] eqn:K.
  - rewrite (check_regular i s l k n F K R). unfold prefix_fits. destruct (match l with PVp _ p => _ | _ => _ end); reflexivity.
  - destruct (sh_vp s && _); reflexivity.
Qed.

(** ** [get] of a longhand *)
Definition answer (l : pid) (x : said) : option property :=
  match x with Value v => Some (PLong l v) | Raw v => Some (PUnparsed l v) | _ => None end.
Lemma get_step : forall d l, typed d -> ~ short l -> regular l ->
    (if pid_eqb (prop_id d) l then Some d else longhand d l) =
    match say d l with Some x => answer l x | None => None end.
Proof.
  intros d l T S R. destruct d as [i v|i vs|i v]; cbn [prop_id say].
  - destruct (pid_eqb i l) eqn:E; [apply pid_eqb_iff in E; subst; reflexivity|]. cbn [longhand].
    destruct (pid_eqb i PAll && reset_by_allb l); reflexivity.
  - destruct (pid_eqb i l) eqn:E.
    + apply pid_eqb_iff in E. subst. destruct T as [_ (s & A & N & _)]. destruct S. exists s. auto.
    + pose proof (longhand_say i vs l R) as L. cbn [say] in L. rewrite L. unfold say_short.
      destruct (find_sh i) as [s|]; auto. destruct (key_of l (sh_keys s) 0) as [[k n]|]; auto.
      destruct (match l with PVp _ p => _ | _ => _ end); reflexivity.
  - cbn [longhand]. destruct (pid_eqb i l) eqn:E.
    + apply pid_eqb_iff in E. subst. apply find_none_short in S. rewrite S. reflexivity.
    + destruct (find_sh i) as [s|] eqn:F; auto. unfold say_short. rewrite F.
      destruct (key_of l (sh_keys s) 0) as [[k n]|]; auto.
      destruct (match l with PVp _ p => _ | _ => _ end); reflexivity.
Qed.
Lemma get_loop_app : forall i a b, get_loop i (a ++ b) = match get_loop i a with Some x => Some x | None => get_loop i b end.
Proof.
  induction a as [|[d m] r IH]; intros b; cbn [get_loop app]; auto.
  destruct (pid_eqb (prop_id d) i); auto. destruct (longhand d i); auto.
Qed.
(** The last declaration that says something [get] can answer *)
Fixpoint last_answer (l : pid) (ds : list property) : option property :=
  match ds with
  | [] => None
  | d :: r => match last_answer l r with
              | Some x => Some x
              | None => match say d l with Some x => answer l x | None => None end
              end
  end.
Lemma get_loop_last : forall l imp ds, all_typed ds -> ~ short l -> regular l ->
    get_loop l (map (fun p => (p, imp)) (rev ds)) = option_map (fun p => (p, imp)) (last_answer l ds).
Proof.
  intros l imp ds T S R. induction ds as [|d r IH]; [reflexivity|].
  cbn [rev last_answer]. rewrite map_app, get_loop_app. cbn [map get_loop].
  rewrite IH by (intros e E; apply T; right; exact E).
  destruct (last_answer l r) as [x|]; cbn [option_map]; auto.
  pose proof (get_step d l (T d (or_introl eq_refl)) S R) as G. rewrite <- G.
  destruct (pid_eqb (prop_id d) l); [reflexivity|]. destruct (longhand d l); reflexivity.
Qed.
Lemma last_answer_say : forall l ds x p, last_say l ds = Some x -> answer l x = Some p -> last_answer l ds = Some p.
Proof.
  induction ds as [|d r IH]; cbn [last_say last_answer]; intros x p H A; [discriminate|].
  destruct (last_say l r) as [y|] eqn:E.
  - injection H as ->. rewrite (IH x p eq_refl A). reflexivity.
  - assert (N : last_answer l r = None).
    { clear -E. induction r as [|e r IH]; auto. cbn [last_say last_answer] in *. destruct (last_say l r); [discriminate|].
      rewrite (IH eq_refl), E. reflexivity. }
    rewrite N, H. exact A.
Qed.
Lemma last_answer_none : forall l ds, last_say l ds = None -> last_answer l ds = None.
Proof.
  induction ds as [|e r IH]; auto. cbn [last_say last_answer]. destruct (last_say l r); [discriminate|].
  intros E. rewrite IH, E; auto.
Qed.
Lemma get_longhand_eq : forall valid b l, typed_block b -> ~ short l -> regular l ->
    get valid b l = match last_answer l (b_important b) with
                    | Some p => Some (p, true)
                    | None => option_map (fun p => (p, false)) (last_answer l (b_normal b))
                    end.
Proof.
  intros valid b l T S R. unfold get. rewrite (proj2 (find_none_short l) S).
  unfold block_iter. rewrite rev_app_distr, <- !map_rev, get_loop_app.
  rewrite (get_loop_last l true), (get_loop_last l false); auto; try (intros d D; apply T; auto).
  destruct (last_answer l (b_important b)); reflexivity.
Qed.
Lemma get_longhand_ok : forall valid b l x imp p, typed_block b -> ~ short l -> regular l ->
    cascaded b l x imp -> answer l x = Some p -> get valid b l = Some (p, imp).
Proof.
  intros valid b l x imp p T S R C A. rewrite (get_longhand_eq valid b l T S R).
  apply (cascaded_iff b l x imp T) in C. unfold cascade in C.
  destruct (last_say l (b_important b)) as [y|] eqn:E.
  - injection C as -> <-. rewrite (last_answer_say _ _ _ _ E A). reflexivity.
  - rewrite (last_answer_none _ _ E). destruct (last_say l (b_normal b)) as [z|] eqn:F; [|discriminate].
    injection C as -> <-. rewrite (last_answer_say _ _ _ _ F A). reflexivity.
Qed.
Lemma get_longhand_none : forall valid b l, typed_block b -> ~ short l -> regular l ->
    (forall x imp, ~ cascaded b l x imp) -> get valid b l = None.
Proof.
  intros valid b l T S R C. rewrite (get_longhand_eq valid b l T S R).
  destruct (cascade b l) as [[x imp]|] eqn:E; [apply (cascaded_iff b l x imp T) in E; destruct (C x imp E)|].
  unfold cascade in E. destruct (last_say l (b_important b)) eqn:F; [discriminate|].
  destruct (last_say l (b_normal b)) eqn:G; [discriminate|].
  rewrite (last_answer_none _ _ F), (last_answer_none _ _ G). reflexivity.
Qed.

(** ** [set_longhand] *)
Lemma nth_set_nth : forall k v vs j, k < List.length vs -> nth j (set_nth k v vs) [] = if Nat.eqb j k then v else nth j vs [].
Proof.
  induction k as [|k IH]; intros v [|x vs] j L; cbn in L; try lia; destruct j as [|j]; cbn; auto. apply IH. lia.
Qed.
Lemma set_nth_length : forall k v vs, List.length (set_nth k v vs) = List.length vs.
Proof. induction k as [|k IH]; intros v [|x vs]; cbn; auto. Qed.
Lemma set_nth_in : forall k v vs x, In x (set_nth k v vs) -> x = v \/ In x vs.
Proof.
  induction k as [|k IH]; intros v [|y vs] x; cbn; auto.
  - intros [<- |H]; auto.
  - intros [<- |H]; auto. apply IH in H as [-> |H]; auto.
Qed.

Lemma fits_id : forall i l x, lh_is x l = true -> prefix_fits i l = true -> l = longhand_id x (prefix_of i).
Proof.
  intros i l x I P. pose proof (lh_is_id _ _ I) as E. apply lh_is_iff in I as [M V].
  destruct l as [n p|n| |n]; cbn in V; try tauto; cbn [prefix_fits] in P.
  - apply vs_eqb_iff in P. subst. symmetry. exact E.
  - rewrite <- E. unfold longhand_id. rewrite V. reflexivity.
Qed.
Lemma own_fits : forall i x, prefix_fits i (longhand_id x (prefix_of i)) = true.
Proof. exact (fun i x => longhand_prefix x i). Qed.

(** Updating one field *)
Lemma say_set_nth : forall i s k g x v vs l, In s shorthand_table -> names i s -> nth_error (sh_keys s) k = Some g -> In x g ->
    g = [x] -> List.length vs = List.length (sh_keys s) ->
    say (PShort i (set_nth k v vs)) l =
    if pid_eqb (longhand_id x (prefix_of i)) l then Some (Value v) else say (PShort i vs) l.
Proof.
  intros i s k g x v vs l T N K X G L. cbn [say].
  assert (KL : k < List.length vs).
  { rewrite L. apply nth_error_Some. rewrite K. discriminate. }
  destruct (pid_eqb (longhand_id x (prefix_of i)) l) eqn:E.
  - apply pid_eqb_iff in E. subst l. rewrite (say_short_at _ i s k g x T N K X). rewrite nth_set_nth by exact KL.
    rewrite Nat.eqb_refl. reflexivity.
  - apply pid_eqb_neq in E. unfold say_short. rewrite (names_find i s T N).
    destruct (key_of l (sh_keys s) 0) as [[k' n]|] eqn:F; auto. fold (prefix_fits i l).
    destruct (prefix_fits i l) eqn:P; auto. rewrite nth_set_nth by exact KL.
    destruct (Nat.eqb k' k) eqn:Q; auto. apply Nat.eqb_eq in Q. subst k'.
    destruct (key_of_some _ _ _ _ _ F) as (g' & x' & _ & K' & X' & I & _). rewrite Nat.sub_0_r in K'.
    rewrite K in K'. injection K' as <-. subst g. destruct X' as [<- |[]].
    destruct E. symmetry. apply fits_id; auto.
Qed.

Definition bg : sh := nth 1 shorthand_table (Sh "" false KPlain []).
Definition bgpos : sh := nth 0 shorthand_table (Sh "" false KPlain []).
Lemma bg_in : In bg shorthand_table. Proof. right. left. reflexivity. Qed.
Lemma bgpos_in : In bgpos shorthand_table. Proof. left. reflexivity. Qed.
Lemma bg_only : forall s, In s shorthand_table -> sh_kind s = KBackground -> s = bg.
Proof.
  intros s T K. assert (F : forallb (fun s => match sh_kind s with KBackground => String.eqb (sh_name s) "background" && negb (sh_vp s) | _ => true end) shorthand_table = true)
    by (vm_compute; reflexivity).
  rewrite forallb_forall in F. specialize (F s T). rewrite K in F. apply andb_true_iff in F as [F1 F2].
  apply String.eqb_eq in F1. apply negb_true_iff in F2.
  apply (names_unique (PPlain "background")); auto; [exact bg_in|split; auto|split; reflexivity].
Qed.

(** What a shorthand looks like after [set_longhand] *)
Lemma set_longhand_cases : forall d p d', typed d -> typed p -> regular_prop p -> set_longhand d p = Some d' ->
    exists i vs s, d = PShort i vs /\ In s shorthand_table /\ names i s /\
      ((exists x v k, p = PLong (longhand_id x (prefix_of i)) v /\ nth_error (sh_keys s) k = Some [x] /\ d' = PShort i (set_nth k v vs) /\
          (sh_kind s = KPlain \/ List.length v = items s vs \/ (sh_kind s = KBackground /\ k = 0))) \/
       (exists x y, p = PShort (PPlain "background-position") [x; y] /\ s = bg /\ i = PPlain "background" /\
          d' = PShort i (set_nth 3 y (set_nth 2 x vs)) /\ List.length x = items s vs)).
Proof.
  intros d p d' TD TP R H. destruct d as [i v|i vs|i v]; try discriminate. cbn [set_longhand] in H.
  destruct (find_sh i) as [s|] eqn:F; [|discriminate]. pose proof (find_names _ _ F) as [T N].
  exists i, vs, s. split; [reflexivity|]. split; [exact T|]. split; [exact N|].
  destruct (sh_vp s && negb (vs_eqb (pid_prefix i) (pid_prefix (prop_id p)))) eqn:C; [discriminate|].
  destruct (sh_set_longhand s vs p) as [vs'|] eqn:E; [|discriminate]. injection H as <-.
  destruct p as [l v|l ws|l v]; cbn [sh_set_longhand prop_id] in *; try discriminate.
  - left. destruct (key_of l (sh_keys s) 0) as [[k n]|] eqn:K; [|discriminate].
    destruct (key_of_some _ _ _ _ _ K) as (g & x & _ & G & X & I & ->). rewrite Nat.sub_0_r in G.
    assert (RL : regular l) by (apply (R l (Value v)); constructor).
    rewrite (check_regular i s l k _ F K RL) in C. apply negb_false_iff in C.
    pose proof (fits_id i l x I C) as L.
    destruct (table_ok_at s T) as (_ & _ & _ & _ & ONE).
    assert (G1 : g = [x] /\ (sh_kind s = KPlain \/ List.length v = items s vs \/ (sh_kind s = KBackground /\ k = 0)) /\ vs' = set_nth k v vs).
    { destruct (sh_kind s) eqn:KD.
      - destruct (Nat.ltb 1 (List.length g)) eqn:LT; [discriminate|]. injection E as <-. apply Nat.ltb_ge in LT.
        destruct g as [|y [|z g]]; cbn in LT; [destruct X| |lia]. destruct X as [<- |[]]. auto.
      - destruct (Nat.eqb (List.length v) (sh_len s vs)) eqn:EQ; [|discriminate]. injection E as <-. apply Nat.eqb_eq in EQ.
        destruct (ONE ltac:(congruence) g (nth_error_In _ _ G)) as [y ->]. destruct X as [<- |[]].
        split; [reflexivity|]. split; [|reflexivity]. right; left. unfold items, sh_len in *. rewrite KD in *. exact EQ.
      - destruct (ONE ltac:(congruence) g (nth_error_In _ _ G)) as [y ->]. destruct X as [<- |[]].
        split; [reflexivity|]. destruct (Nat.eqb k 0) eqn:K0; [apply Nat.eqb_eq in K0; injection E as <-; auto|].
        destruct (Nat.eqb (List.length v) (sh_len s vs)) eqn:EQ; [|discriminate]. injection E as <-. apply Nat.eqb_eq in EQ.
        split; [|reflexivity]. right; left. unfold items, sh_len in *. rewrite KD in *. exact EQ. }
    destruct G1 as (-> & Q & ->). exists x, v, k. subst l. auto.
  - right. destruct (sh_kind s) eqn:KD;
      try (exfalso; clear -E; repeat match type of E with match ?c with _ => _ end = _ => destruct c; try discriminate end; fail).
    pose proof (bg_only s T KD) as ->.
    destruct l as [n q|n| |n]; try discriminate.
    assert (NE : n = "background-position").
    { clear -E. repeat match type of E with match ?c with _ => _ end = _ => destruct c; try discriminate end. reflexivity. }
    subst n. destruct ws as [|x [|y [|z ws]]]; try discriminate.
    destruct (Nat.eqb (List.length x) (sh_len bg vs)) eqn:EQ; [|discriminate]. injection E as <-. apply Nat.eqb_eq in EQ.
    exists x, y. split; [reflexivity|]. split; [reflexivity|]. split; [|split; [reflexivity|exact EQ]].
    destruct i as [m q|m| |m]; cbn in N; try tauto; destruct N as [N1 N2]; [discriminate|]. rewrite <- N2. reflexivity.
Qed.

(** The declaration that carries [p] says what [p] says, and otherwise what it said. *)
Lemma set_longhand_say : forall d p d', typed d -> typed p -> regular_prop p -> prop_id p <> PAll -> set_longhand d p = Some d' ->
    typed d' /\ prop_id d' = prop_id d /\
    forall l, say d' l = match say p l with Some x => Some x | None => say d l end.
Proof.
  intros d p d' TD TP R NA H.
  destruct (set_longhand_cases d p d' TD TP R H) as (i & vs & s & -> & T & N & [(x & v & k & -> & K & -> & Q)|(x & y & -> & -> & -> & -> & Q)]).
  - pose proof (typed_short _ _ _ TD T N) as L. split; [|split; [reflexivity|]].
    + destruct TD as [ONE (s' & T' & N' & L' & Q')]. split; [exact ONE|].
      exists s. split; [exact T|]. split; [exact N|]. rewrite set_nth_length. split; [exact L|].
      rewrite (names_unique i s' s T' T N' N) in Q'. destruct (sh_kind s) eqn:KD; auto.
      * destruct Q as [Q|[Q|[Q _]]]; try discriminate. destruct Q' as [m M]. exists m. intros w W.
        apply set_nth_in in W as [-> |W]; auto. rewrite Q. unfold items. rewrite KD. apply M. apply nth_In. rewrite L.
        destruct (table_ok_at s T) as (_ & _ & _ & E & _). destruct (sh_keys s); [congruence|cbn; lia].
      * destruct Q' as (c & r & -> & m & M). destruct k as [|k]; cbn [set_nth]; [exists v, r; split; [reflexivity|]; exists m; exact M|].
        exists c, (set_nth k v r). split; [reflexivity|]. exists m. intros w W. apply set_nth_in in W as [-> |W]; auto.
        destruct Q as [Q|[Q|[_ Q]]]; try discriminate. rewrite Q. unfold items. rewrite KD. cbn [nth].
        apply M. apply nth_In. rewrite (bg_only s T KD) in L. cbn in L. lia.
    + intros l. rewrite (say_set_nth i s k [x] x v vs l T N K (or_introl eq_refl) eq_refl L). cbn [say].
      destruct (pid_eqb (longhand_id x (prefix_of i)) l); auto.
      assert (A : pid_eqb (longhand_id x (prefix_of i)) PAll = false) by (apply pid_eqb_neq; exact NA). rewrite A. reflexivity.
  - pose proof (typed_short _ _ _ TD T N) as L. split; [|split; [reflexivity|]].
    + destruct TD as [ONE (s' & T' & N' & L' & Q')]. split; [exact ONE|].
      exists bg. split; [exact T|]. split; [exact N|]. rewrite !set_nth_length. split; [exact L|].
      rewrite (names_unique _ s' bg T' T N' N) in Q'.
      change (exists c r, vs = c :: r /\ same_length r) in Q'. destruct Q' as (c & r & -> & m & M).
      change (exists c' r', set_nth 3 y (set_nth 2 x (c :: r)) = c' :: r' /\ same_length r').
      cbn [set_nth]. exists c, (set_nth 2 y (set_nth 1 x r)). split; [reflexivity|]. exists m.
      assert (LX : List.length x = m).
      { rewrite Q. unfold items. change (List.length (nth 1 (c :: r) []) = m). cbn [nth]. apply M. apply nth_In. cbn in L. lia. }
      assert (LY : List.length y = m).
      { destruct TP as [_ (s2 & T2 & N2 & _ & Q2)]. rewrite (names_unique _ s2 bgpos T2 bgpos_in N2 ltac:(split; reflexivity)) in Q2.
        change (same_length [x; y]) in Q2. destruct Q2 as [m' M']. rewrite (M' y), <- (M' x), LX; cbn; auto. }
      intros w W. apply set_nth_in in W as [-> |W]; auto. apply set_nth_in in W as [-> |W]; auto.
    + intros l.
      rewrite (say_set_nth (PPlain "background") bg 3 [Lh "background-position-y" false] (Lh "background-position-y" false) y _ l T N eq_refl (or_introl eq_refl) eq_refl)
        by (rewrite set_nth_length; exact L).
      rewrite (say_set_nth (PPlain "background") bg 2 [Lh "background-position-x" false] (Lh "background-position-x" false) x _ l T N eq_refl (or_introl eq_refl) eq_refl)
        by exact L.
      change (longhand_id (Lh "background-position-y" false) (prefix_of (PPlain "background"))) with (PPlain "background-position-y").
      change (longhand_id (Lh "background-position-x" false) (prefix_of (PPlain "background"))) with (PPlain "background-position-x").
      cbn [say]. unfold say_short at 2.
      change (find_sh (PPlain "background-position")) with (Some bgpos). cbv iota beta.
      change (sh_keys bgpos) with [[Lh "background-position-x" false]; [Lh "background-position-y" false]].
      destruct l as [n q|n| |n]; cbn [key_of existsb lh_is lh_vp lh_name negb andb orb pid_eqb]; auto.
      rewrite (String.eqb_sym n "background-position-x") || idtac.
      destruct (String.eqb "background-position-x" n) eqn:E1; cbn [orb].
      * apply String.eqb_eq in E1. subst n. reflexivity.
      * destruct (String.eqb "background-position-y" n) eqn:E2; reflexivity.
Qed.

(** ** Which declarations carry [p] *)
Lemma take_accepts : forall d p d', typed d -> typed p -> regular_prop p -> set_longhand d p = Some d' -> accepts d p.
Proof.
  intros d p d' TD TP R H.
  destruct (set_longhand_cases d p d' TD TP R H) as (i & vs & s & -> & T & N & [(x & v & k & -> & K & -> & Q)|(x & y & -> & -> & -> & -> & Q)]).
  - exact (accepts_field i vs s k x v T N K Q).
  - exact (accepts_position vs bg x y T N Q).
Qed.
Lemma accepts_take : forall d p, regular_prop p -> accepts d p -> prop_id d = prop_id p \/ exists d', set_longhand d p = Some d'.
Proof.
  intros d p R A. destruct A as [d p E|i vs s k l v T N K Q|vs s x y T N Q]; [auto| |]; right.
  - cbn [set_longhand prop_id]. rewrite (names_find i s T N).
    pose proof (key_of_at s (longhand_id l (prefix_of i)) k [l] l T K (or_introl eq_refl) (lh_is_own l _)) as KO.
    assert (RL : regular (longhand_id l (prefix_of i))) by (apply (R _ (Value v)); constructor).
    rewrite (check_regular i s _ k _ (names_find i s T N) KO RL), own_fits. cbn [negb sh_set_longhand]. rewrite KO.
    change (Nat.ltb 1 (List.length [l])) with false. cbv iota.
    destruct (sh_kind s) eqn:KD; [eexists; reflexivity| |].
    + destruct Q as [Q|[Q|[Q _]]]; try discriminate.
      assert (E : Nat.eqb (List.length v) (sh_len s vs) = true).
      { apply Nat.eqb_eq. rewrite Q. unfold items, sh_len. rewrite KD. reflexivity. }
      rewrite E. eexists; reflexivity.
    + destruct (Nat.eqb k 0) eqn:K0; [eexists; reflexivity|]. apply Nat.eqb_neq in K0.
      destruct Q as [Q|[Q|[_ Q]]]; try discriminate; [|contradiction].
      assert (E : Nat.eqb (List.length v) (sh_len s vs) = true).
      { apply Nat.eqb_eq. rewrite Q. unfold items, sh_len. rewrite KD. reflexivity. }
      rewrite E. eexists; reflexivity.
  - rewrite (names_unique _ s bg T bg_in N ltac:(split; reflexivity)) in Q.
    cbn [set_longhand]. change (find_sh (PPlain "background")) with (Some bg). cbv iota.
    change (sh_vp bg) with false. cbn [andb]. cbv iota. cbn [sh_set_longhand].
    change (sh_kind bg) with KBackground. cbv iota. change (sh_len bg vs) with (items bg vs). rewrite Q, Nat.eqb_refl.
    eexists; reflexivity.
Qed.

Lemma say_short_none : forall f g i l, say_short f i l = None <-> say_short g i l = None.
Proof.
  intros f g i l. unfold say_short. destruct (find_sh i) as [s|]; [|tauto].
  destruct (key_of l (sh_keys s) 0) as [[k n]|]; [|tauto]. destruct (match l with PVp _ p => _ | _ => _ end); [|tauto].
  split; discriminate.
Qed.
Definition dom (i l : pid) : bool :=
  match find_sh i with
  | Some _ => match say_short (fun _ => Pending) i l with Some _ => true | None => false end
  | None => pid_eqb i l
  end.
Lemma say_dom : forall d l, typed d -> prop_id d <> PAll -> say d l = None <-> dom (prop_id d) l = false.
Proof.
  intros d l T NA. unfold dom. destruct d as [i v|i vs|i v]; cbn [say prop_id] in *.
  - destruct T as [_ S]. cbn [prop_id] in *. rewrite (proj2 (find_none_short i) S).
    assert (A : pid_eqb i PAll = false) by (apply pid_eqb_neq; exact NA). rewrite A. cbn [andb].
    destruct (pid_eqb i l); split; auto; discriminate.
  - destruct T as [_ (s & A & N & _)]. rewrite (names_find i s A N).
    rewrite (say_short_none _ (fun _ => Pending) i l). destruct (say_short (fun _ => Pending) i l); split; auto; discriminate.
  - destruct (find_sh i).
    + destruct (say_short (fun _ => Pending) i l); split; auto; discriminate.
    + destruct (pid_eqb i l); split; auto; discriminate.
Qed.
Lemma same_domain : forall d p l, typed d -> typed p -> prop_id d = prop_id p -> prop_id p <> PAll ->
    say p l = None -> say d l = None.
Proof.
  intros d p l TD TP E NA H. apply say_dom; auto; [congruence|]. rewrite E. apply say_dom; auto.
Qed.
Lemma says_something : forall p, typed p -> exists l x, say p l = Some x.
Proof.
  assert (SS : forall f i s, In s shorthand_table -> names i s -> exists l x, say_short f i l = Some x).
  { intros f i s A N. destruct (table_ok_at s A) as (_ & _ & NE & NK & _).
    destruct (sh_keys s) as [|g r] eqn:K; [congruence|]. destruct g as [|x g]; [destruct (NE [] (or_introl eq_refl)); reflexivity|].
    exists (longhand_id x (prefix_of i)), (f 0). apply (say_short_at f i s 0 (x :: g) x A N); [rewrite K; reflexivity|left; reflexivity]. }
  intros p T. destruct p as [i v|i vs|i v]; cbn [say].
  - exists i, (Value v). rewrite pid_eqb_refl. reflexivity.
  - destruct T as [_ (s & A & N & _)]. apply (SS _ i s A N).
  - destruct (find_sh i) as [s|] eqn:F; [apply find_names in F as [A N]; apply (SS _ i s A N)|].
    exists i, (Raw v). rewrite pid_eqb_refl. reflexivity.
Qed.
Lemma touches_say : forall d p, typed d -> typed p -> touches d p <-> exists l x y, say d l = Some x /\ say p l = Some y.
Proof.
  intros d p TD TP. split; intros (l & x & y & A & B); exists l, x, y; split; try (apply says_say; auto; fail);
    apply (says_say _ l _ ltac:(eassumption)); auto.
Qed.
Lemma accepts_touches : forall d p, typed d -> typed p -> regular_prop p -> prop_id p <> PAll -> accepts d p -> touches d p.
Proof.
  intros d p TD TP R NA A. apply touches_say; auto. destruct (accepts_take d p R A) as [E|[d' E]].
  - destruct (says_something p TP) as (l & y & Y). destruct (say d l) as [x|] eqn:X; [exists l, x, y; auto|].
    rewrite (same_domain p d l TP TD (eq_sym E) ltac:(congruence) X) in Y. discriminate.
  - destruct (set_longhand_cases d p d' TD TP R E) as (i & vs & s & -> & T & N & [(x & v & k & -> & K & -> & Q)|(x & y & -> & -> & -> & -> & Q)]).
    + exists (longhand_id x (prefix_of i)). eexists. eexists. cbn [say]. rewrite pid_eqb_refl. split; [|reflexivity].
      exact (say_short_at _ i s k [x] x T N K (or_introl eq_refl)).
    + exists (PPlain "background-position-x"). eexists. eexists. split; reflexivity.
Qed.

(** ** The loop of [set] *)
Definition carries (p d d' : property) : Prop :=
  (prop_id d = prop_id p /\ d' = p) \/ (prop_id d <> prop_id p /\ set_longhand d p = Some d').
Definition passes (p d : property) : Prop := prop_id d <> prop_id p /\ set_longhand d p = None.

Lemma set_loop_some : forall p ls rds r', set_loop p ls rds = Some r' ->
    exists c d d' a, rds = c ++ d :: a /\ r' = c ++ d' :: a /\ carries p d d' /\
      (forall e, In e c -> passes p e) /\ (forall e, In e (c ++ [d]) -> conflict ls e = false).
Proof.
  induction rds as [|d r IH]; cbn [set_loop]; intros r' H; [discriminate|].
  destruct (conflict ls d) eqn:C; [discriminate|]. destruct (pid_eqb (prop_id d) (prop_id p)) eqn:E.
  - injection H as <-. apply pid_eqb_iff in E. exists [], d, p, r. cbn. split; [reflexivity|]. split; [reflexivity|].
    split; [left; auto|]. split; [intros e []|]. intros e [<- |[]]. exact C.
  - apply pid_eqb_neq in E. destruct (set_longhand d p) as [d'|] eqn:S.
    + injection H as <-. exists [], d, d', r. cbn. split; [reflexivity|]. split; [reflexivity|].
      split; [right; auto|]. split; [intros e []|]. intros e [<- |[]]. exact C.
    + destruct (set_loop p ls r) as [r2|] eqn:L; [|discriminate]. injection H as <-.
      destruct (IH r2 eq_refl) as (c & e & e' & a & -> & -> & K & P & Q).
      exists (d :: c), e, e', a. cbn. split; [reflexivity|]. split; [reflexivity|]. split; [exact K|].
      split; intros x [<- |X]; auto. split; auto.
Qed.
Lemma set_in_cases : forall p ds,
    set_in p ds = ds ++ [p] \/
    exists a d d' c, ds = a ++ d :: c /\ set_in p ds = a ++ d' :: c /\ carries p d d' /\
      (forall e, In e c -> passes p e) /\ (forall e, In e (d :: c) -> conflict (longhands_or_self (prop_id p)) e = false).
Proof.
  intros p ds. unfold set_in. destruct (set_loop p _ (rev ds)) as [r|] eqn:E; [|left; reflexivity]. right.
  apply set_loop_some in E as (c & d & d' & a & H & -> & K & P & Q).
  exists (rev a), d, d', (rev c).
  assert (DS : ds = rev (c ++ d :: a)) by (rewrite <- H, rev_involutive; reflexivity).
  rewrite rev_app_distr in DS. cbn in DS. rewrite <- app_assoc in DS. split; [exact DS|].
  rewrite rev_app_distr. cbn. rewrite <- app_assoc. split; [reflexivity|]. split; [exact K|].
  split; intros e I; [apply P; apply in_rev; exact I|]. apply Q. destruct I as [<- |I]; apply in_or_app; [right; left; reflexivity|left; apply in_rev; exact I].
Qed.
Lemma carries_say : forall p d d', typed d -> typed p -> regular_prop p -> prop_id p <> PAll -> carries p d d' ->
    typed d' /\ forall l, say d' l = match say p l with Some x => Some x | None => say d l end.
Proof.
  intros p d d' TD TP R NA [[E ->]|[_ E]].
  - split; auto. intros l. destruct (say p l) eqn:S; auto. symmetry. apply (same_domain d p l); auto.
  - destruct (set_longhand_say d p d' TD TP R NA E) as (A & _ & B). auto.
Qed.
Lemma carries_accepts : forall p d d', typed d -> typed p -> regular_prop p -> carries p d d' -> accepts d p.
Proof.
  intros p d d' TD TP R [[E ->]|[_ E]]; [apply accepts_same; exact E|]. exact (take_accepts d p d' TD TP R E).
Qed.
Lemma passes_not_accepts : forall p d, regular_prop p -> passes p d -> ~ accepts d p.
Proof.
  intros p d R [N S] A. destruct (accepts_take d p R A) as [E|[d' E]]; congruence.
Qed.

Lemma all_typed_app : forall a b, all_typed (a ++ b) <-> all_typed a /\ all_typed b.
Proof.
  intros a b. unfold all_typed. split.
  - intros H. split; intros d D; apply H; apply in_or_app; auto.
  - intros [A B] d D. apply in_app_or in D as [D|D]; auto.
Qed.
Lemma all_typed_cons : forall a b, all_typed (a :: b) <-> typed a /\ all_typed b.
Proof.
  intros a b. unfold all_typed. split.
  - intros H. split; [apply H; left; reflexivity|intros d D; apply H; right; exact D].
  - intros [A B] d [<- |D]; auto.
Qed.

Section SetIn.
Variables (p : property) (ds : list property).
Hypotheses (TP : typed p) (TD : all_typed ds) (R : regular_prop p) (NA : prop_id p <> PAll).

Lemma set_in_typed : all_typed (set_in p ds).
Proof.
  destruct (set_in_cases p ds) as [-> |(a & d & d' & c & E & -> & K & _)].
  - apply all_typed_app. split; auto. apply all_typed_cons. split; auto. intros e [].
  - rewrite E in TD. apply all_typed_app in TD as [TA TC]. apply all_typed_cons in TC as [Td TC].
    apply all_typed_app. split; auto. apply all_typed_cons. split; auto.
    exact (proj1 (carries_say p d d' Td TP R NA K)).
Qed.
Lemma set_in_others : forall l, say p l = None -> last_say l (set_in p ds) = last_say l ds.
Proof.
  intros l S. destruct (set_in_cases p ds) as [-> |(a & d & d' & c & E & -> & K & _)].
  - rewrite last_say_app. cbn [last_say]. rewrite S. reflexivity.
  - pose proof TD as TD'. rewrite E in TD' |- *. apply all_typed_app in TD' as [TA TC]. apply all_typed_cons in TC as [Td TC].
    rewrite !last_say_app. cbn [last_say]. rewrite (proj2 (carries_say p d d' Td TP R NA K) l), S. reflexivity.
Qed.
Lemma set_in_wins : carried ds p -> forall l x, say p l = Some x -> last_say l (set_in p ds) = Some x.
Proof.
  intros H l x S. destruct (set_in_cases p ds) as [-> |(a & d & d' & c & E & -> & K & P & _)].
  - rewrite last_say_app. cbn [last_say]. rewrite S. reflexivity.
  - pose proof TD as TD'. rewrite E in TD'. apply all_typed_app in TD' as [TA TC]. apply all_typed_cons in TC as [Td TC].
    rewrite last_say_app. cbn [last_say]. rewrite (proj2 (carries_say p d d' Td TP R NA K) l), S.
    assert (N : last_say l c = None); [|rewrite N; reflexivity].
    apply silent_iff; auto. intros e y I B.
    assert (TO : touches e p) by (exists l, y, x; split; [exact B|apply says_say; auto]).
    destruct (H a d c e E (carries_accepts p d d' Td TP R K) I TO) as (e' & I' & A').
    exact (passes_not_accepts p e' R (P e' I') A').
Qed.
Lemma set_in_order : exists a d c, set_in p ds = a ++ d :: c /\ (forall l x, say p l = Some x -> say d l = Some x) /\
    (forall e, In e c -> In e ds /\ conflict (longhands_or_self (prop_id p)) e = false).
Proof.
  destruct (set_in_cases p ds) as [-> |(a & d & d' & c & E & -> & K & P & Q)].
  - exists ds, p, []. split; [reflexivity|]. split; auto. intros e [].
  - pose proof TD as TD'. rewrite E in TD'. apply all_typed_app in TD' as [TA TC]. apply all_typed_cons in TC as [Td TC].
    exists a, d', c. split; [reflexivity|]. split.
    + intros l x S. rewrite (proj2 (carries_say p d d' Td TP R NA K) l), S. reflexivity.
    + intros e I. split; [rewrite E; apply in_or_app; right; right; exact I|]. apply Q. right. exact I.
Qed.
End SetIn.

(** ** [set] *)
Lemma drop_typed : forall i ds, all_typed ds -> all_typed (drop_id i ds).
Proof. intros i ds T d D. apply filter_In in D as [D _]. auto. Qed.
Lemma drop_others : forall p ds l, typed p -> all_typed ds -> prop_id p <> PAll -> say p l = None ->
    last_say l (drop_id (prop_id p) ds) = last_say l ds.
Proof.
  intros p ds l TP T NA S. induction ds as [|d r IH]; auto. apply all_typed_cons in T as [Td T].
  unfold drop_id in *. cbn [filter]. destruct (pid_eqb (prop_id d) (prop_id p)) eqn:E; cbn [negb last_say]; rewrite IH; auto.
  apply pid_eqb_iff in E. rewrite (same_domain d p l Td TP E NA S). destruct (last_say l r); reflexivity.
Qed.
Lemma typed_split : forall b, typed_block b -> all_typed (b_important b) /\ all_typed (b_normal b).
Proof. intros b T. split; intros d D; apply T; auto. Qed.
Lemma typed_join : forall i n, all_typed i -> all_typed n -> typed_block (Block i n).
Proof. intros i n A B d [D|D]; auto. Qed.

Lemma set_typed : forall b p imp, typed_block b -> typed p -> regular_prop p -> prop_id p <> PAll -> typed_block (set b p imp).
Proof.
  intros b p imp T TP R NA. apply typed_split in T as [T1 T2].
  unfold set. destruct imp; apply typed_join; auto using set_in_typed, drop_typed.
Qed.
Lemma set_others : forall b p imp l x i, typed_block b -> typed p -> regular_prop p -> prop_id p <> PAll ->
    (forall y, ~ says p l y) -> cascaded (set b p imp) l x i <-> cascaded b l x i.
Proof.
  intros b p imp l x i T TP R NA S. rewrite !cascaded_iff; auto using set_typed.
  assert (SN : say p l = None).
  { destruct (say p l) as [y|] eqn:E; auto. apply (says_say p l y TP) in E. destruct (S y E). }
  apply typed_split in T as [T1 T2]. unfold cascade, set.
  destruct imp; cbn [b_important b_normal]; rewrite set_in_others, drop_others; auto; tauto.
Qed.
Lemma set_wins : forall b p imp l x, typed_block b -> typed p -> regular_prop p -> prop_id p <> PAll ->
    carried (target b imp) p -> (imp = false -> ~ overruled b p) -> says p l x -> cascaded (set b p imp) l x imp.
Proof.
  intros b p imp l x T TP R NA H I S. rewrite cascaded_iff by auto using set_typed.
  apply (says_say p l x TP) in S. pose proof (typed_split b T) as [T1 T2]. unfold cascade, set.
  destruct imp; cbn [b_important b_normal target] in *.
  - rewrite (set_in_wins p (b_important b) TP T1 R NA H l x S). reflexivity.
  - assert (N : last_say l (drop_id (prop_id p) (b_important b)) = None).
    { apply silent_iff; [apply drop_typed; auto|]. intros d y D B. apply filter_In in D as [D E].
      apply negb_true_iff, pid_eqb_neq in E.
      assert (O : overruled b p) by (exists d; split; [exact D|]; split; [exact E|]; exists l, y, x; split; [exact B|apply says_say; auto]).
      exact (I eq_refl O). }
    rewrite N, (set_in_wins p (b_normal b) TP T2 R NA H l x S). reflexivity.
Qed.

(** ** The order against declarations of the other writing mode *)
Definition log_distinct : bool := distinct (map (fun e => (true, fst e)) logical_table).
Lemma logical_unique : forall n a b, In (n, a) logical_table -> In (n, b) logical_table -> a = b.
Proof.
  assert (D : NoDup (map fst logical_table)).
  { apply (NoDup_map_inv (fun n : string => (true, n))). rewrite map_map. apply distinct_nodup. vm_compute. reflexivity. }
  revert D. generalize logical_table as t. induction t as [|[m x] t IH]; cbn; intros D n a b A B; [destruct A|]. inversion D; subst.
  destruct A as [A|A], B as [B|B].
  - congruence.
  - injection A as -> ->. destruct H1. change n with (fst (n, b)). apply in_map. exact B.
  - injection B as -> ->. destruct H1. change n with (fst (n, a)). apply in_map. exact A.
  - eapply IH; eauto.
Qed.
Lemma opposed_conflicts : forall l l', opposed l l' -> conflicts l l' = true.
Proof.
  assert (F : forall l g c, in_group l g c -> logical l = Some (g, c)).
  { intros l g c I. assert (E : forall n, In (n, (g, c)) logical_table -> option_map snd (find (fun e => String.eqb (fst e) n) logical_table) = Some (g, c)).
    { intros n J. destruct (find _ logical_table) as [[m y]|] eqn:E.
      - apply find_some in E as [A B]. apply String.eqb_eq in B. cbn in B. subst m. cbn. f_equal. eapply logical_unique; eauto.
      - pose proof (find_none _ _ E _ J) as Z. cbn in Z. rewrite String.eqb_refl in Z. discriminate. }
    destruct l as [n p|n| |n]; cbn [logical in_group] in *; auto; destruct I. }
  intros l l' (g & c & c' & A & B & D). unfold conflicts. rewrite (F l g c A), (F l' g c' B).
  destruct (lgroup_dec g g); [|congruence]. destruct (category_dec c c'); [contradiction|reflexivity].
Qed.
Lemma say_member : forall d l x, typed d -> prop_id d <> PAll -> say d l = Some x -> In l (longhands_or_self (prop_id d)).
Proof.
  intros d l x T NA S.
  assert (D : dom (prop_id d) l = true).
  { destruct (dom (prop_id d) l) eqn:E; auto. apply (say_dom d l T NA) in E. congruence. }
  unfold dom in D. unfold longhands_or_self, longhands. destruct (find_sh (prop_id d)) as [s|] eqn:F.
  - destruct (say_short (fun _ => Pending) (prop_id d) l) as [y|] eqn:E; [|discriminate].
    apply say_short_inv in E as (t & k & g & z & A & N & K & Z & -> & _).
    apply find_names in F as [B M]. rewrite (names_unique _ s t B A M N).
    unfold sh_longhands. apply in_map_iff. exists z. split.
    + unfold lh_id, longhand_id, sh_prefix, prefix_of. reflexivity.
    + apply in_concat. exists g. split; auto. eapply nth_error_In; eauto.
  - apply pid_eqb_iff in D. subst. left. reflexivity.
Qed.
Lemma set_order : forall b p imp, typed_block b -> without_all b -> typed p -> regular_prop p -> prop_id p <> PAll ->
    exists a d c, target (set b p imp) imp = a ++ d :: c /\ (forall l x, says p l x -> says d l x) /\
      forall e l l' x y, In e c -> says p l x -> says e l' y -> ~ opposed l l'.
Proof.
  intros b p imp T W TP R NA. pose proof (typed_split b T) as [T1 T2].
  assert (TT : all_typed (target b imp)) by (destruct imp; auto).
  assert (E : target (set b p imp) imp = set_in p (target b imp)) by (destruct imp; reflexivity).
  destruct (set_in_order p (target b imp) TP TT R NA) as (a & d & c & S & D & Q).
  assert (TS : all_typed (set_in p (target b imp))) by (apply set_in_typed; auto).
  rewrite S in TS. apply all_typed_app in TS as [_ TS]. apply all_typed_cons in TS as [Td Tc].
  exists a, d, c. split; [congruence|]. split.
  - intros l x X. apply says_say; auto. apply D. apply says_say; auto.
  - intros e l l' x y I X Y O. destruct (Q e I) as [I' C].
    apply (says_say p l x TP) in X. apply (says_say e l' y (Tc e I)) in Y.
    assert (NAe : prop_id e <> PAll).
    { apply W. destruct imp; cbn in I'; auto. }
    assert (CF : conflict (longhands_or_self (prop_id p)) e = true); [|congruence].
    unfold conflict. apply existsb_exists. exists l. split; [apply (say_member p l x); auto|].
    apply existsb_exists. exists l'. split; [apply (say_member e l' y); auto|].
    apply opposed_conflicts; auto.
Qed.
