(** * The handler of borders keeps used values *)
From Coq Require Import List Bool Lia.
From Verif Require Import SideModel SideSpec SideProofs BorderModel BorderSpec.
Import ListNotations.

Local Arguments key_eqb !a !b /. Local Arguments ikey_eqb !a !b /. Local Arguments side_eqb !a !b /. Local Arguments lside_eqb !a !b /.
Lemma key_eqb_eq a b : key_eqb a b = true <-> a = b.
Proof. destruct a, b; split; intros H; try reflexivity; discriminate H. Qed.
Lemma ikey_eqb_eq a b : ikey_eqb a b = true <-> a = b.
Proof. destruct a, b; split; intros H; try reflexivity; discriminate H. Qed.
Lemma ikey_refl a : ikey_eqb a a = true. Proof. destruct a; reflexivity. Qed.
Lemma key_refl a : key_eqb a a = true. Proof. destruct a; reflexivity. Qed.
Lemma lside_refl a : lside_eqb a a = true. Proof. destruct a; reflexivity. Qed.
Lemma place_eqb_eq a b : place_eqb a b = true <-> a = b.
Proof. destruct a as [[]|[]], b as [[]|[]]; split; intros H; try reflexivity; discriminate H. Qed.
Lemma canonical_proper : proper canonical.
Proof. intros a b H. destruct a, b; try reflexivity; discriminate H. Qed.

Section Proofs.
Variable V R M : Type.
Variable mean : V -> M.
Variable veq : V -> V -> bool.
Variable compat : V -> bool.
Variable fb : list V -> list (list V) * list V.
Variable ls ss : bool.
Variable w : writing_mode.
Variable rtl : bool.
Hypothesis veq_mean : forall a b, veq a b = true -> mean a = mean b.
Hypothesis fb_honest : honest mean fb.
Hypothesis w_proper : proper w.
Hypothesis Hw : (ls = true /\ ss = true) \/ w = horizontal rtl.
Notation decl := (decl V R).
Notation cell := (cell R M).
Notation env := (target -> option cell).
Notation gives := (gives mean w).

Definition give (d : decl) (e : env) : env := fun t => match gives d t with Some c => Some c | None => e t end.
Fixpoint give_all (l : list decl) (e : env) : env := match l with [] => e | d :: r => give_all r (give d e) end.
Lemma used_give l : forall e t, used_from mean w l (e t) t = give_all l e t.
Proof. induction l as [|d r IH]; intros e t; [reflexivity|]. cbn [used_from give_all]. rewrite <- IH. reflexivity. Qed.
Lemma give_at d e e' t : e t = e' t -> give d e t = give d e' t.
Proof. intros H. unfold give. rewrite H. reflexivity. Qed.
Lemma give_all_at l : forall e e' t, e t = e' t -> give_all l e t = give_all l e' t.
Proof. induction l as [|d r IH]; intros e e' t H; [exact H|]. apply IH. apply give_at. exact H. Qed.
Lemma give_all_app l m e : give_all (l ++ m) e = give_all m (give_all l e).
Proof. revert e. induction l as [|d r IH]; intros e; [reflexivity|]. apply IH. Qed.

(** ** Pushing *)
Definition seen (x : event V R) : decl := match x with Main d => d | Dir a b => if rtl then b else a end.
Definition run (l : list (event V R)) (e : env) : env := give_all (map seen l) e.
Lemma run_app l m e : run (l ++ m) e = run m (run l e).
Proof. unfold run. rewrite map_app. apply give_all_app. Qed.
Lemma run_at l e e' t : e t = e' t -> run l e t = run l e' t.
Proof. apply give_all_at. Qed.

Lemma colors_none d l t : gives d t = None -> gives (with_colors V R d l) t = None.
Proof.
  destruct d as [p k v|p b|a k x y|a b|k t' r b l'|b|i v|a b c d' e|i u]; cbn [with_colors]; try (intros H; exact H).
  - destruct k; [destruct l as [|v' [|]]; intros H; exact H..|]. destruct l as [|v' [|]]; try (intros H; exact H).
    destruct t as [s j|i]; cbn; [|reflexivity]. destruct (side_eqb (side_at w p) s && key_eqb Color j); [intros H; discriminate H|reflexivity].
  - destruct l as [|v' [|]]; try (intros H; exact H). destruct t as [s j|i]; cbn; [|reflexivity].
    destruct (side_eqb (side_at w p) s); [intros H; discriminate H|reflexivity].
  - destruct k; [destruct l as [|v' [|v2 [|]]]; intros H; exact H..|]. destruct l as [|v' [|v2 [|]]]; try (intros H; exact H).
    destruct t as [s j|i]; cbn; [|reflexivity]. destruct j; try reflexivity. cbn.
    destruct (side_eqb (w (start_of a)) s); [intros H; discriminate H|]. destruct (side_eqb (w (end_of a)) s); [intros H; discriminate H|reflexivity].
  - destruct l as [|v' [|]]; try (intros H; exact H). destruct t as [s j|i]; cbn; [|reflexivity].
    destruct (side_eqb (w (start_of a)) s || side_eqb (w (end_of a)) s); [intros H; discriminate H|reflexivity].
  - destruct k; [destruct l as [|v1 [|v2 [|v3 [|v4 [|]]]]]; intros H; exact H..|]. destruct l as [|v1 [|v2 [|v3 [|v4 [|]]]]]; try (intros H; exact H).
    destruct t as [s j|i]; cbn; [|reflexivity]. destruct j; try reflexivity. intros H; discriminate H.
  - destruct l as [|v' [|]]; try (intros H; exact H). destruct t as [s j|i]; cbn; intros H; discriminate H.
Qed.
Lemma colors_same d l l' t : colors V R d = Some l -> map mean l' = map mean l -> gives (with_colors V R d l') t = gives d t.
Proof.
  intros H E.
  destruct d as [p k v|p b|a k x y|a b|k t' r b l2|b|i v|a b c d' e|i u]; cbn [colors] in H; try discriminate H;
    try (destruct k; try discriminate H); injection H as <-; cbn [map] in E.
  - destruct l' as [|v' [|]]; try discriminate E. injection E as E. cbn. rewrite E. reflexivity.
  - destruct l' as [|v' [|]]; try discriminate E. injection E as E. cbn. destruct t as [s [| |]|i]; cbn; rewrite ?E; reflexivity.
  - destruct l' as [|v' [|v2 [|]]]; try discriminate E. injection E as E1 E2. cbn. rewrite E1, E2. reflexivity.
  - destruct l' as [|v' [|]]; try discriminate E. injection E as E. cbn. destruct t as [s [| |]|i]; cbn; rewrite ?E; reflexivity.
  - destruct l' as [|v1 [|v2 [|v3 [|v4 [|]]]]]; try discriminate E. injection E as E1 E2 E3 E4. cbn.
    destruct t as [[] j|i]; rewrite ?E1, ?E2, ?E3, ?E4; reflexivity.
  - destruct l' as [|v' [|]]; try discriminate E. injection E as E. cbn. destruct t as [s [| |]|i]; cbn; rewrite ?E; reflexivity.
Qed.
Lemma pre_none d pre : forall (e : env) t, gives d t = None -> run (map (fun l => Main (with_colors V R d l)) pre) e t = e t.
Proof.
  induction pre as [|l pre IH]; intros e t H; [reflexivity|]. cbn [map]. change (?x :: ?y) with ([x] ++ y). rewrite run_app. rewrite IH by exact H.
  unfold run. cbn. unfold give. rewrite (colors_none d l t H). reflexivity.
Qed.
Lemma push_run fl d e t : run (snd (push V R fb fl d)) e t = give d e t.
Proof.
  unfold push. destruct (colors V R d) as [l|] eqn:E; [|reflexivity]. destruct (contains _ fl); [reflexivity|].
  pose proof (fb_honest l) as Hl. destruct (fb l) as [pre l']. cbn [snd] in Hl |- *. rewrite run_app.
  change (give (with_colors V R d l') (run (map (fun l => Main (with_colors V R d l)) pre) e) t = give d e t). unfold give.
  rewrite (colors_same d l l' t E Hl). destruct (gives d t) eqn:G; [reflexivity|]. apply pre_none. exact G.
Qed.
Lemma prop_run fl d e t : run (snd (prop V R fb ls fl d)) e t = give d e t.
Proof.
  unfold prop. destruct ls eqn:El; [apply push_run|]. pose proof Hw as Hw'; destruct Hw' as [[? _]|E]; [discriminate|].
  destruct d as [p k v|p b|a k x y|a b|k t' r b l2|b|i v|a b c d' e'|i u]; try apply push_run;
    destruct p as [s|[]]; try apply push_run; try rewrite push_run; unfold run, give; cbn; destruct t as [s j|i]; try reflexivity; unfold side_at;
    rewrite ?E; cbn; destruct rtl; reflexivity.
Qed.
Lemma props_run l : forall fl e t, run (snd (props V R fb ls fl l)) e t = give_all l e t.
Proof.
  induction l as [|d l IH]; intros fl e t; [reflexivity|]. cbn [props give_all].
  pose proof (prop_run fl d e t) as Hd. destruct (prop V R fb ls fl d) as [fl' ev]. cbn [snd] in Hd.
  pose proof (IH fl' (run ev e) t) as Hr. destruct (props V R fb ls fl' l) as [fl'' ev']. cbn [snd] in Hr |- *.
  rewrite run_app, Hr. apply give_all_at. exact Hd.
Qed.

(** ** One category *)
Definition over (o : option V) (c : option cell) : option cell := match o with Some v => Some (CVal (mean v)) | None => c end.
Definition m (log : bool) : lside -> side := if log then w else canonical.
Lemma m_proper log : proper (m log). Proof. destruct log; [exact w_proper|exact canonical_proper]. Qed.
Lemma at_m log l : side_at w (at_side log l) = m log l. Proof. destruct log; reflexivity. Qed.
Lemma m_eqb log a b : side_eqb (m log a) (m log b) = lside_eqb a b.
Proof. apply proper_eqb. apply m_proper. Qed.

Lemma give_one log l k v e x j : give (DOne (at_side log l) k v) e (T (m log x) j) = if lside_eqb l x && key_eqb k j then Some (CVal (mean v)) else e (T (m log x) j).
Proof. unfold give. cbn. rewrite at_m, m_eqb. destruct (lside_eqb l x && key_eqb k j); reflexivity. Qed.
Lemma give_side log l b e x j : give (DSide (at_side log l) b) e (T (m log x) j) = if lside_eqb l x then Some (CVal (mean (bget b j))) else e (T (m log x) j).
Proof. unfold give. cbn. rewrite at_m, m_eqb. destruct (lside_eqb l x); reflexivity. Qed.
Lemma give_border b e s j : give (DBorder b) e (T s j) = Some (CVal (mean (bget b j))).
Proof. reflexivity. Qed.
Lemma give_pair a k s t e x j : give (DPair a k s t) e (T (m true x) j)
  = if key_eqb k j then if lside_eqb (start_of a) x then Some (CVal (mean s)) else if lside_eqb (end_of a) x then Some (CVal (mean t)) else e (T (m true x) j)
    else e (T (m true x) j).
Proof.
  unfold give. cbn -[m]. change (w (start_of a)) with (m true (start_of a)). change (w (end_of a)) with (m true (end_of a)). rewrite !m_eqb.
  destruct (key_eqb k j); [|reflexivity]. destruct (lside_eqb (start_of a) x); [reflexivity|]. destruct (lside_eqb (end_of a) x); reflexivity.
Qed.
Lemma give_axis a b e x j : give (DAxis a b) e (T (m true x) j)
  = if lside_eqb (start_of a) x || lside_eqb (end_of a) x then Some (CVal (mean (bget b j))) else e (T (m true x) j).
Proof.
  unfold give. cbn -[m]. change (w (start_of a)) with (m true (start_of a)). change (w (end_of a)) with (m true (end_of a)). rewrite !m_eqb.
  destruct (lside_eqb (start_of a) x || lside_eqb (end_of a) x); reflexivity.
Qed.
(** Values for the sides of the canonical mode, or the same value for all *)
Lemma give_rect log k t r b l e x j : (log = false \/ (mean t = mean b /\ mean b = mean l /\ mean l = mean r)) ->
  give (DRect k t r b l) e (T (m log x) j)
  = if key_eqb k j then Some (CVal (mean (match x with BlockStart => t | BlockEnd => b | InlineStart => l | InlineEnd => r end))) else e (T (m log x) j).
Proof.
  intros H. unfold give. cbn. destruct (key_eqb k j); [|reflexivity]. do 2 f_equal. destruct H as [-> | (E1 & E2 & E3)].
  - destruct x; reflexivity.
  - destruct (m log x), x; congruence.
Qed.

Lemma beqb_mean a b : beqb V veq a b = true -> forall k, mean (bget a k) = mean (bget b k).
Proof.
  unfold beqb. intros H k. apply andb_true_iff in H. destruct H as [H H3]. apply andb_true_iff in H. destruct H as [H1 H2].
  destruct k; cbn; apply veq_mean; assumption.
Qed.
Lemma side_diff_gives log x o l e y j : (forall k, e (T (m log l) k) = Some (CVal (mean (bget x k)))) ->
  give_all (side_diff V R veq log x o l) e (T (m log y) j) = if lside_eqb l y then Some (CVal (mean (bget o j))) else e (T (m log y) j).
Proof.
  intros H. unfold side_diff.
  destruct (veq (bget x Width) (bget o Width)) eqn:E1, (veq (bget x Style) (bget o Style)) eqn:E2, (veq (bget x Color) (bget o Color)) eqn:E3;
    cbn [andb give_all]; rewrite ?give_one, ?give_side; destruct (lside_eqb l y) eqn:El; cbn [andb]; try reflexivity;
    try (apply lside_eqb_eq in El; subst y; apply veq_mean in E1 || clear E1; apply veq_mean in E2 || clear E2; apply veq_mean in E3 || clear E3;
         destruct j; cbn; try reflexivity; rewrite H; cbn in *; congruence).
Qed.

Definition sel {A} (t b l r : A) (x : lside) : A := match x with BlockStart => t | BlockEnd => b | InlineStart => l | InlineEnd => r end.
Lemma inline_gives log t l r e y j : (forall x k, e (T (m log x) k) = Some (CVal (mean (bget t k)))) ->
  give_all (inline_diff V R veq log t l r) e (T (m log y) j) = Some (CVal (mean (bget (sel t t l r y) j))).
Proof.
  intros H. unfold inline_diff.
  assert (Hs : give_all (side_diff V R veq log t l InlineStart ++ side_diff V R veq log t r InlineEnd) e (T (m log y) j) = Some (CVal (mean (bget (sel t t l r y) j)))).
  { rewrite give_all_app. rewrite side_diff_gives.
    - destruct (lside_eqb InlineEnd y) eqn:E1; [destruct y; try discriminate E1; reflexivity|]. rewrite side_diff_gives by (intros k; apply H).
      destruct (lside_eqb InlineStart y) eqn:E2; [destruct y; try discriminate E2; reflexivity|]. rewrite H. destruct y; try discriminate; reflexivity.
    - intros k. rewrite side_diff_gives by (intros k'; apply H). cbn [lside_eqb]. apply H. }
  destruct log; [|exact Hs].
  destruct (veq (bget l Width) (bget t Width)) eqn:A1, (veq (bget r Width) (bget t Width)) eqn:A2,
    (veq (bget l Style) (bget t Style)) eqn:A3, (veq (bget r Style) (bget t Style)) eqn:A4,
    (veq (bget l Color) (bget t Color)) eqn:A5, (veq (bget r Color) (bget t Color)) eqn:A6; cbn [negb orb Nat.add Nat.eqb Nat.ltb Nat.leb andb];
    cbn [bget] in A1, A2, A3, A4, A5, A6; rewrite ?A1, ?A3, ?A5; cbn [negb]; try exact Hs;
    try (destruct (beqb V veq l r) eqn:Eb; [|exact Hs]; pose proof (beqb_mean _ _ Eb j) as Ej; cbn [give_all]; rewrite give_axis; destruct y; cbn; rewrite ?H; cbn; congruence);
    cbn [give_all]; rewrite give_pair; apply veq_mean in A1 || clear A1; apply veq_mean in A2 || clear A2; apply veq_mean in A3 || clear A3;
    apply veq_mean in A4 || clear A4; apply veq_mean in A5 || clear A5; apply veq_mean in A6 || clear A6;
    destruct y, j; cbn; rewrite ?H; cbn; congruence.
Qed.
Lemma complete_gives log t b l r e y j :
  give_all (complete V R veq log t b l r) e (T (m log y) j) = Some (CVal (mean (bget (sel t b l r y) j))).
Proof.
  unfold complete.
  assert (Hd : forall x fallback (wb : bool),
    give_all ((if wb then [DBorder x] else []) ++ fallback) e (T (m log y) j) = Some (CVal (mean (bget (sel t b l r y) j))) ->
    (forall k y, (veq (bget t k) (bget b k) && veq (bget l k) (bget r k) && veq (bget l k) (bget t k)) = true -> mean (bget x k) = mean (bget (sel t b l r y) k)) ->
    let is_eq k := veq (bget t k) (bget b k) && veq (bget l k) (bget r k) && veq (bget l k) (bget t k) in
    let rect k := DRect k (bget t k) (bget r k) (bget b k) (bget l k) in
    give_all (if negb log && is_eq Color && is_eq Style then [DBorder x; rect Width]
      else if negb log && is_eq Width && is_eq Style then [DBorder x; rect Color]
      else if negb log && is_eq Width && is_eq Color then [DBorder x; rect Style]
      else (if wb : bool then [DBorder x] else []) ++ fallback) e (T (m log y) j) = Some (CVal (mean (bget (sel t b l r y) j)))).
  { intros x fallback wb Hf Hx. cbn zeta. destruct log; [exact Hf|]. cbn [negb andb].
    assert (Hr : forall k, (forall j, j <> k -> (veq (bget t j) (bget b j) && veq (bget l j) (bget r j) && veq (bget l j) (bget t j)) = true) ->
      give_all [DBorder x; DRect k (bget t k) (bget r k) (bget b k) (bget l k)] e (T (m false y) j) = Some (CVal (mean (bget (sel t b l r y) j)))).
    { intros k Hk. cbn [give_all]. rewrite give_rect by (left; reflexivity). destruct (key_eqb k j) eqn:Ek.
      - apply key_eqb_eq in Ek. subst j. destruct y; reflexivity.
      - rewrite give_border. do 2 f_equal. apply Hx. apply Hk. intros ->. rewrite key_refl in Ek. discriminate. }
    destruct (veq (bget t Width) (bget b Width) && veq (bget l Width) (bget r Width) && veq (bget l Width) (bget t Width)) eqn:E1,
      (veq (bget t Style) (bget b Style) && veq (bget l Style) (bget r Style) && veq (bget l Style) (bget t Style)) eqn:E2,
      (veq (bget t Color) (bget b Color) && veq (bget l Color) (bget r Color) && veq (bget l Color) (bget t Color)) eqn:E3;
      cbn [andb]; try exact Hf; apply Hr; intros [| |] N; congruence. }
  assert (Heq : forall k, (veq (bget t k) (bget b k) && veq (bget l k) (bget r k) && veq (bget l k) (bget t k)) = true ->
            mean (bget t k) = mean (bget b k) /\ mean (bget l k) = mean (bget r k) /\ mean (bget l k) = mean (bget t k)).
  { intros k H. apply andb_true_iff in H. destruct H as [H H3]. apply andb_true_iff in H. destruct H as [H1 H2].
    repeat split; apply veq_mean; assumption. }
  assert (Hone : forall x o z y, (forall y, y <> z -> mean (bget x j) = mean (bget (sel t b l r y) j)) -> sel t b l r z = o ->
            give_all (DBorder x :: side_diff V R veq log x o z) e (T (m log y) j) = Some (CVal (mean (bget (sel t b l r y) j)))).
  { intros x o z y0 Hx Ho. cbn [give_all]. rewrite side_diff_gives by (intros k; apply give_border). destruct (lside_eqb z y0) eqn:E.
    - apply lside_eqb_eq in E. subst z. rewrite Ho. reflexivity.
    - rewrite give_border. do 2 f_equal. apply Hx. intros ->. rewrite lside_refl in E. discriminate. }
  assert (Htwo : forall x o1 z1 o2 z2, z1 <> z2 -> (forall y, y <> z1 -> y <> z2 -> mean (bget x j) = mean (bget (sel t b l r y) j)) ->
            sel t b l r z1 = o1 -> sel t b l r z2 = o2 ->
            give_all ([DBorder x] ++ side_diff V R veq log x o1 z1 ++ side_diff V R veq log x o2 z2) e (T (m log y) j) = Some (CVal (mean (bget (sel t b l r y) j)))).
  { intros x o1 z1 o2 z2 N Hx H1 H2. rewrite !give_all_app. rewrite side_diff_gives.
    - destruct (lside_eqb z2 y) eqn:E2; [apply lside_eqb_eq in E2; subst y; rewrite H2; reflexivity|].
      rewrite side_diff_gives by (intros k; apply give_border). destruct (lside_eqb z1 y) eqn:E1; [apply lside_eqb_eq in E1; subst y; rewrite H1; reflexivity|].
      cbn [give_all]. rewrite give_border. do 2 f_equal. apply Hx; intros ->; rewrite lside_refl in *; discriminate.
    - intros k. rewrite side_diff_gives by (intros k'; apply give_border). destruct (lside_eqb z1 z2) eqn:E1; [apply lside_eqb_eq in E1; contradiction|]. apply give_border. }
  destruct (beqb V veq t b) eqn:B1, (beqb V veq t l) eqn:B2, (beqb V veq t r) eqn:B3, (beqb V veq l r) eqn:B4, (beqb V veq b l) eqn:B5, (beqb V veq b r) eqn:B6;
    cbn [andb];
    (pose proof (beqb_mean _ _ B1) as C1; clear B1) || clear B1; (pose proof (beqb_mean _ _ B2) as C2; clear B2) || clear B2;
    (pose proof (beqb_mean _ _ B3) as C3; clear B3) || clear B3; (pose proof (beqb_mean _ _ B4) as C4; clear B4) || clear B4;
    (pose proof (beqb_mean _ _ B5) as C5; clear B5) || clear B5; (pose proof (beqb_mean _ _ B6) as C6; clear B6) || clear B6;
    try (apply Hone; [intros [| | |] N; cbn; try congruence|reflexivity]; fail);
    try (cbn [give_all]; rewrite give_border; destruct y; cbn; congruence);
    try (first [ apply (Hd t (inline_diff V R veq log t l r) true)
               | apply (Hd l (side_diff V R veq log l t BlockStart ++ side_diff V R veq log l b BlockEnd) true)
               | apply (Hd b (side_diff V R veq log b t BlockStart ++ side_diff V R veq log b l InlineStart) true)
               | apply (Hd t [DSide (at_side log BlockStart) t; DSide (at_side log BlockEnd) b;
                    DSide (at_side log InlineStart) l; DSide (at_side log InlineEnd) r] false) ];
         [first [ apply Htwo; [discriminate|intros [| | |] N1 N2; cbn; congruence|reflexivity|reflexivity]
                | rewrite give_all_app; rewrite inline_gives by (intros; apply give_border); destruct y; cbn; congruence
                | cbn [app give_all]; rewrite !give_side; destruct y; reflexivity ]
         | intros k [| | |] Hk; destruct (Heq k Hk) as (K1 & K2 & K3); cbn; congruence]; fail).
Qed.

(** ** Sides that are not complete *)
Definition decls_ok (log : bool) (p : list decl * slots V) (f : slots V) : Prop :=
  forall e x j, over (snd p x j) (give_all (fst p) e (T (m log x) j)) = over (f x j) (e (T (m log x) j)).
Lemma in_turn_ok log g f : (forall k f, decls_ok log (g k f) f) -> decls_ok log (in_turn V R g f) f.
Proof.
  intros H e x j. unfold in_turn.
  pose proof (H Style f) as H1. destruct (g Style f) as [e1 f1]. pose proof (H Width f1) as H2. destruct (g Width f1) as [e2 f2].
  pose proof (H Color f2) as H3. destruct (g Color f2) as [e3 f3]. unfold decls_ok in *. cbn [fst snd] in *. rewrite !give_all_app.
  rewrite H3, H2, H1. reflexivity.
Qed.
Lemma over_set k o (f : slot V) j c : over (set_key V k o f j) c = if key_eqb k j then over o c else over (f j) c.
Proof. unfold set_key. destruct (key_eqb k j); reflexivity. Qed.
Lemma rect_ok log k f : decls_ok log (rect V R veq log k f) f.
Proof.
  intros e x j. unfold rect. destruct (f BlockStart k) as [t|] eqn:Et; [|reflexivity]. destruct (f InlineEnd k) as [r|] eqn:Er; [|reflexivity].
  destruct (f BlockEnd k) as [b|] eqn:Eb; [|reflexivity]. destruct (f InlineStart k) as [l|] eqn:El; [|reflexivity].
  destruct (negb log || (veq t b && veq b l && veq l r)) eqn:E; [|reflexivity]. cbn [fst snd give_all]. rewrite give_rect.
  - unfold clear. rewrite over_set. destruct (key_eqb k j) eqn:Ek; [|reflexivity]. apply key_eqb_eq in Ek. subst j.
    destruct x; cbn [over]; [rewrite Et|rewrite Eb|rewrite El|rewrite Er]; reflexivity.
  - destruct log; [|left; reflexivity]. right. cbn in E. apply andb_true_iff in E. destruct E as [E E3]. apply andb_true_iff in E. destruct E as [E1 E2].
    repeat split; apply veq_mean; assumption.
Qed.
Lemma pair_ok a k f : decls_ok true (pair V R a k f) f.
Proof.
  intros e x j. unfold pair. destruct (f (start_of a) k) as [s|] eqn:Es; [|reflexivity]. destruct (f (end_of a) k) as [t|] eqn:Et; [|reflexivity].
  cbn [fst snd give_all]. rewrite give_pair. unfold clear, on_axis. destruct (key_eqb k j) eqn:Ek.
  - apply key_eqb_eq in Ek. subst j. destruct (lside_eqb (start_of a) x) eqn:E1.
    + apply lside_eqb_eq in E1. subst x. rewrite lside_refl. cbn [orb]. rewrite over_set, key_refl. cbn [over]. rewrite Es. reflexivity.
    + destruct (lside_eqb (end_of a) x) eqn:E2.
      * apply lside_eqb_eq in E2. subst x. rewrite lside_refl, orb_true_r, over_set, key_refl. cbn [over]. rewrite Et. reflexivity.
      * replace (lside_eqb x (start_of a) || lside_eqb x (end_of a)) with false; [reflexivity|].
        destruct a, x; try reflexivity; discriminate.
  - destruct (lside_eqb x (start_of a) || lside_eqb x (end_of a)); [|reflexivity]. rewrite over_set, Ek. reflexivity.
Qed.
Lemma give_left k v e x j : w = horizontal rtl -> give (DOne (P Left) k v) e (T (w x) j)
  = if lside_eqb (if rtl then InlineEnd else InlineStart) x && key_eqb k j then Some (CVal (mean v)) else e (T (w x) j).
Proof.
  clear Hw. intros E. unfold give. rewrite E. destruct rtl, x; cbn; try reflexivity; destruct (key_eqb k j); reflexivity. Qed.
Lemma give_right k v e x j : w = horizontal rtl -> give (DOne (P Right) k v) e (T (w x) j)
  = if lside_eqb (if rtl then InlineStart else InlineEnd) x && key_eqb k j then Some (CVal (mean v)) else e (T (w x) j).
Proof.
  clear Hw. intros E. unfold give. rewrite E. destruct rtl, x; cbn; try reflexivity; destruct (key_eqb k j); reflexivity. Qed.
Lemma inline_prop_ok k f : w = horizontal rtl -> decls_ok true (inline_prop V R veq k f) f.
Proof.
  clear Hw.
  intros Hh e x j. unfold inline_prop. destruct (f InlineStart k) as [s|] eqn:Es; [|reflexivity]. destruct (f InlineEnd k) as [t|] eqn:Et; [|reflexivity].
  destruct (veq s t) eqn:E; [|reflexivity]. apply veq_mean in E. cbn [fst snd give_all m]. rewrite give_right, give_left by exact Hh. unfold clear, on_axis.
  destruct (key_eqb k j) eqn:Ek.
  - apply key_eqb_eq in Ek. subst j. destruct x; cbn [lside_eqb orb start_of end_of]; try (destruct rtl; reflexivity);
      rewrite over_set, key_refl, ?Es, ?Et; destruct rtl; cbn; congruence.
  - rewrite !andb_false_r. destruct x; cbn [lside_eqb orb start_of end_of]; try reflexivity; rewrite over_set, Ek; reflexivity.
Qed.
Lemma to_border_some (s : slot V) b : to_border V s = Some b -> forall k, s k = Some (bget b k).
Proof. unfold to_border. destruct (s Width) eqn:E1, (s Style) eqn:E2, (s Color) eqn:E3; try discriminate. intros H. injection H as <-. intros []; assumption. Qed.
Lemma side_props_gives log l f e x j : give_all (side_props V R log l f) e (T (m log x) j) = if lside_eqb l x then over (f l j) (e (T (m log x) j)) else e (T (m log x) j).
Proof.
  unfold side_props. destruct (to_border V (f l)) as [b|] eqn:E.
  - cbn [give_all]. rewrite give_side. destruct (lside_eqb l x) eqn:El; [|reflexivity]. rewrite (to_border_some _ _ E). reflexivity.
  - clear E. rewrite !give_all_app. unfold opt_decl.
    destruct (f l Style) eqn:E1, (f l Width) eqn:E2, (f l Color) eqn:E3; cbn [give_all]; rewrite ?give_one; destruct (lside_eqb l x); cbn [andb]; try reflexivity;
      destruct j; cbn; rewrite ?E1, ?E2, ?E3; reflexivity.
Qed.
Definition axis_of (l : lside) : axis := match l with BlockStart | BlockEnd => Block | InlineStart | InlineEnd => Inline end.
Lemma sides_gives log a f e x j :
  give_all (side_props V R log (start_of a) f ++ side_props V R log (end_of a) f) e (T (m log x) j)
  = if on_axis a x then over (f x j) (e (T (m log x) j)) else e (T (m log x) j).
Proof. rewrite give_all_app, !side_props_gives. destruct a, x; cbn; reflexivity. Qed.
(** After [in_turn], only one axis may be touched *)
Definition only_axis (a : axis) (p : list decl * slots V) (f : slots V) : Prop :=
  (forall e x j, on_axis a x = false -> give_all (fst p) e (T (m true x) j) = e (T (m true x) j)) /\ (forall x, on_axis a x = false -> snd p x = f x).
Lemma in_turn_axis a g f : (forall k f, only_axis a (g k f) f) -> only_axis a (in_turn V R g f) f.
Proof.
  intros H. unfold in_turn.
  destruct (H Style f) as [A1 B1]. destruct (g Style f) as [e1 f1]. destruct (H Width f1) as [A2 B2]. destruct (g Width f1) as [e2 f2].
  destruct (H Color f2) as [A3 B3]. destruct (g Color f2) as [e3 f3]. cbn [fst snd] in *. split; cbn [fst snd].
  - intros e x j Hx. rewrite !give_all_app, A3, A2, A1 by exact Hx. reflexivity.
  - intros x Hx. rewrite B3, B2, B1 by exact Hx. reflexivity.
Qed.
Lemma pair_axis a k f : only_axis a (pair V R a k f) f.
Proof.
  unfold pair. destruct (f (start_of a) k) as [s|]; [|split; reflexivity]. destruct (f (end_of a) k) as [t|]; [|split; reflexivity]. split; cbn [fst snd].
  - intros e x j Hx. cbn [give_all]. rewrite give_pair. destruct (key_eqb k j); [|reflexivity]. destruct a, x; try discriminate Hx; reflexivity.
  - intros x Hx. unfold clear. rewrite Hx. reflexivity.
Qed.
Lemma inline_prop_axis k f : w = horizontal rtl -> only_axis Inline (inline_prop V R veq k f) f.
Proof.
  clear Hw.
  intros Hh. unfold inline_prop. destruct (f InlineStart k) as [s|]; [|split; reflexivity]. destruct (f InlineEnd k) as [t|]; [|split; reflexivity].
  destruct (veq s t); [|split; reflexivity]. split; cbn [fst snd].
  - intros e x j Hx. cbn [give_all m]. rewrite give_right, give_left by exact Hh. destruct x; try discriminate Hx; destruct rtl; reflexivity.
  - intros x Hx. unfold clear. rewrite Hx. reflexivity.
Qed.
Lemma axis_finish a p f e x j : decls_ok true p f -> only_axis a p f ->
  give_all (fst p ++ side_props V R true (start_of a) (snd p) ++ side_props V R true (end_of a) (snd p)) e (T (m true x) j)
  = if on_axis a x then over (f x j) (e (T (m true x) j)) else e (T (m true x) j).
Proof.
  intros Hp [Ha _]. rewrite give_all_app, sides_gives. destruct (on_axis a x) eqn:E; [apply Hp|]. apply Ha. exact E.
Qed.
Lemma same_border_some a f b : same_border V veq a f = Some b ->
  forall x j, on_axis a x = true -> over (f x j) None = Some (CVal (mean (bget b j))).
Proof.
  unfold same_border. destruct (to_border V (f (start_of a))) as [p|] eqn:E1; [|discriminate]. destruct (to_border V (f (end_of a))) as [q|] eqn:E2; [|discriminate].
  destruct (beqb V veq p q) eqn:E; [|discriminate]. intros H. injection H as <-. intros x j Hx.
  assert (Hx' : x = start_of a \/ x = end_of a) by (destruct a, x; try discriminate Hx; auto). destruct Hx' as [-> | ->].
  - rewrite (to_border_some _ _ E1). reflexivity.
  - rewrite (to_border_some _ _ E2). cbn. rewrite (beqb_mean _ _ E). reflexivity.
Qed.
Lemma over_some o c d : over o None = Some d -> over o c = Some d. Proof. destruct o; [intros H; exact H|discriminate]. Qed.
Lemma place_side p b e x j : give (DSide p b) e (T x j) = if side_eqb (side_at w p) x then Some (CVal (mean (bget b j))) else e (T x j).
Proof. unfold give. cbn. destruct (side_eqb (side_at w p) x); reflexivity. Qed.
Lemma block_gives log f e x j : give_all (block_props V R veq ls ss log f) e (T (m log x) j)
  = if on_axis Block x then over (f x j) (e (T (m log x) j)) else e (T (m log x) j).
Proof.
  unfold block_props. destruct log; cbn [andb].
  - destruct (same_border V veq Block f) as [b|] eqn:E.
    + pose proof (same_border_some _ _ _ E) as Hs. destruct ls eqn:El; [destruct ss|].
      * cbn [give_all]. rewrite give_axis. destruct (on_axis Block x) eqn:Ex.
        -- rewrite (over_some _ _ _ (Hs x j Ex)). destruct x; try discriminate Ex; reflexivity.
        -- destruct x; try discriminate Ex; reflexivity.
      * cbn [give_all]. change (L BlockStart) with (at_side true BlockStart). change (L BlockEnd) with (at_side true BlockEnd). rewrite !give_side.
        destruct (on_axis Block x) eqn:Ex; [rewrite (over_some _ _ _ (Hs x j Ex))|]; destruct x; try discriminate Ex; reflexivity.
      * pose proof Hw as Hw'; destruct Hw' as [[? _]|Hh]; [congruence|]. cbn [give_all m]. rewrite !place_side. cbn [side_at].
        destruct (on_axis Block x) eqn:Ex; [rewrite (over_some _ _ _ (Hs x j Ex))|]; rewrite Hh; destruct rtl, x; try discriminate Ex; reflexivity.
    + destruct (ss && negb (valid V (f BlockStart)) && negb (valid V (f BlockEnd))).
      * pose proof (axis_finish Block (in_turn V R (pair V R Block) f) f e x j) as A. destruct (in_turn V R (pair V R Block) f) as [e1 f1] eqn:Et. cbn [fst snd] in A.
        apply A; rewrite <- Et; [apply in_turn_ok; intros; apply pair_ok|apply in_turn_axis; intros; apply pair_axis].
      * apply (sides_gives true Block).
  - apply (sides_gives false Block).
Qed.
Lemma inline_props_gives log f e x j : give_all (inline_props V R veq ls ss log f) e (T (m log x) j)
  = if on_axis Inline x then over (f x j) (e (T (m log x) j)) else e (T (m log x) j).
Proof.
  unfold inline_props. destruct log; cbn [andb].
  - destruct (same_border V veq Inline f) as [b|] eqn:E.
    + pose proof (same_border_some _ _ _ E) as Hs. destruct ls eqn:El; [destruct ss|].
      * cbn [give_all]. rewrite give_axis. destruct (on_axis Inline x) eqn:Ex.
        -- rewrite (over_some _ _ _ (Hs x j Ex)). destruct x; try discriminate Ex; reflexivity.
        -- destruct x; try discriminate Ex; reflexivity.
      * cbn [give_all]. change (L InlineStart) with (at_side true InlineStart). change (L InlineEnd) with (at_side true InlineEnd). rewrite !give_side.
        destruct (on_axis Inline x) eqn:Ex; [rewrite (over_some _ _ _ (Hs x j Ex))|]; destruct x; try discriminate Ex; reflexivity.
      * pose proof Hw as Hw'; destruct Hw' as [[? _]|Hh]; [congruence|]. cbn [give_all m]. rewrite !place_side. cbn [side_at].
        destruct (on_axis Inline x) eqn:Ex; [rewrite (over_some _ _ _ (Hs x j Ex))|]; rewrite Hh; destruct rtl, x; try discriminate Ex; reflexivity.
    + destruct (negb (valid V (f InlineStart)) && negb (valid V (f InlineEnd))); [|apply (sides_gives true Inline)].
      set (g := if ss then pair V R Inline else inline_prop V R veq).
      pose proof (axis_finish Inline (in_turn V R g f) f e x j) as A.
      destruct (in_turn V R g f) as [e1 f1] eqn:Et. cbn [fst snd] in A.
      apply A; rewrite <- Et; unfold g; destruct ss eqn:Ess.
      * apply in_turn_ok; intros; apply pair_ok.
      * pose proof Hw as Hw'; destruct Hw' as [[_ ?]|Hh]; [congruence|]. apply in_turn_ok; intros; apply inline_prop_ok; exact Hh.
      * apply in_turn_axis; intros; apply pair_axis.
      * pose proof Hw as Hw'; destruct Hw' as [[_ ?]|Hh]; [congruence|]. apply in_turn_axis; intros; apply inline_prop_axis; exact Hh.
  - apply (sides_gives false Inline).
Qed.
Lemma category_gives log f e x j : give_all (category_props V R veq ls ss log f) e (T (m log x) j) = over (f x j) (e (T (m log x) j)).
Proof.
  unfold category_props.
  assert (Hp : give_all (let (e, f) := in_turn V R (rect V R veq log) f in e ++ block_props V R veq ls ss log f ++ inline_props V R veq ls ss log f) e (T (m log x) j)
               = over (f x j) (e (T (m log x) j))).
  { pose proof (in_turn_ok log (rect V R veq log) f (rect_ok log)) as H. destruct (in_turn V R (rect V R veq log) f) as [e1 f1].
    rewrite !give_all_app, inline_props_gives, block_gives. unfold decls_ok in H. cbn [fst snd] in H. rewrite <- H.
    destruct x; cbn [on_axis lside_eqb start_of end_of orb]; reflexivity. }
  destruct (to_border V (f BlockStart)) as [t|] eqn:Et; [|exact Hp]. destruct (to_border V (f BlockEnd)) as [b|] eqn:Eb; [|exact Hp].
  destruct (to_border V (f InlineStart)) as [l|] eqn:El; [|exact Hp]. destruct (to_border V (f InlineEnd)) as [r|] eqn:Er; [|exact Hp].
  rewrite complete_gives. destruct x; cbn [sel];
    [rewrite (to_border_some _ _ Et)|rewrite (to_border_some _ _ Eb)|rewrite (to_border_some _ _ El)|rewrite (to_border_some _ _ Er)]; reflexivity.
Qed.

(** ** The state stands for declarations that are still to come *)
Notation state := (state V).
Definition inverse (w : writing_mode) (x : side) : lside :=
  if side_eqb (w BlockStart) x then BlockStart else if side_eqb (w BlockEnd) x then BlockEnd else if side_eqb (w InlineStart) x then InlineStart else InlineEnd.
Lemma inverse_left f l : proper f -> inverse f (f l) = l.
Proof. intros H. unfold inverse. rewrite !(proper_eqb f) by exact H. destruct l; reflexivity. Qed.
Lemma inverse_right f x : proper f -> f (inverse f x) = x.
Proof.
  intros H. assert (N : exists l, f l = x).
  { pose proof (H BlockStart BlockEnd) as A1. pose proof (H BlockStart InlineStart) as A2. pose proof (H BlockStart InlineEnd) as A3.
    pose proof (H BlockEnd InlineStart) as A4. pose proof (H BlockEnd InlineEnd) as A5. pose proof (H InlineStart InlineEnd) as A6.
    destruct (side_eqb (f BlockStart) x) eqn:E1; [apply side_eqb_eq in E1; eauto|]. destruct (side_eqb (f BlockEnd) x) eqn:E2; [apply side_eqb_eq in E2; eauto|].
    destruct (side_eqb (f InlineStart) x) eqn:E3; [apply side_eqb_eq in E3; eauto|]. destruct (side_eqb (f InlineEnd) x) eqn:E4; [apply side_eqb_eq in E4; eauto|].
    exfalso. destruct (f BlockStart), (f BlockEnd), (f InlineStart), (f InlineEnd), x; try discriminate;
      try (discriminate A1; reflexivity); try (discriminate A2; reflexivity); try (discriminate A3; reflexivity); try (discriminate A4; reflexivity);
      try (discriminate A5; reflexivity); try (discriminate A6; reflexivity). }
  destruct N as [l <-]. rewrite inverse_left by exact H. reflexivity.
Qed.
Definition env_of (s : state) (e : env) : env := fun t =>
  match t with T x k => over (slot_of V s (L (inverse w x)) k) (over (slot_of V s (P x) k) (e t)) | TI _ => e t end.
Definition empty (s : state) : Prop := forall p k, slot_of V s p k = None.
Definition inv (s : state) : Prop := (has_any V s = false -> empty s) /\ (forall l k v, slot_of V s (L l) k = Some v -> cat V s = Logical).
Notation flush := (flush V R veq fb ls ss).
Lemma flush_gives s e x k : inv s -> run (snd (flush s)) e (T x k) = env_of s e (T x k).
Proof.
  intros [H1 H2]. unfold BorderModel.flush. destruct (has_any V s) eqn:E.
  - pose proof (props_run (category_props V R veq ls ss false (fun l => slot_of V s (P (canonical l)))) (done V s) e (T x k)) as A.
    destruct (props V R fb ls (done V s) _) as [fl ev]. cbn [snd] in A.
    pose proof (props_run (category_props V R veq ls ss true (fun l => slot_of V s (L l))) fl (run ev e) (T x k)) as B.
    destruct (props V R fb ls fl _) as [fl' ev']. cbn [snd] in B |- *. rewrite run_app, B. cbn [env_of].
    rewrite <- (inverse_right w x) at 1 by exact w_proper. change w with (m true) at 1. rewrite category_gives. cbn [m]. rewrite inverse_right by exact w_proper.
    f_equal. rewrite A. rewrite <- (inverse_right canonical x) at 1 by exact canonical_proper. change canonical with (m false) at 1. rewrite category_gives. cbn [m].
    rewrite inverse_right by exact canonical_proper. reflexivity.
  - cbn [snd run map give_all env_of]. unfold run. cbn. rewrite !(H1 eq_refl). reflexivity.
Qed.
Lemma flush_cat s : cat V (fst (flush s)) = cat V s.
Proof. unfold BorderModel.flush. destruct (has_any V s); [|reflexivity]. destruct (props _ _ _ _ _ _). destruct (props _ _ _ _ _ _). reflexivity. Qed.
Lemma flush_empty s : inv s -> empty (fst (flush s)).
Proof.
  intros [H _]. unfold BorderModel.flush. destruct (has_any V s); [|apply H; reflexivity]. destruct (props _ _ _ _ _ _). destruct (props _ _ _ _ _ _). intros p k. reflexivity.
Qed.
Lemma empty_inv s : empty s -> inv s.
Proof. intros H. split; [intros _; exact H|]. intros l k v E. rewrite H in E. discriminate. Qed.
Lemma empty_env s e t : empty s -> env_of s e t = e t.
Proof. intros H. destruct t as [x k|i]; [|reflexivity]. cbn. rewrite !H. reflexivity. Qed.
Lemma env_at s e e' t : e t = e' t -> env_of s e t = env_of s e' t.
Proof. intros H. destruct t as [x k|i]; [|exact H]. cbn. rewrite H. reflexivity. Qed.

Definition keeps (s : state) (p : state * list (event V R)) (l : list decl) : Prop :=
  forall e x k, env_of (fst p) (run (snd p) e) (T x k) = give_all l (env_of s e) (T x k).
Lemma keeps_then s p f l l' : keeps s p l -> keeps (fst p) (f (fst p)) l' -> keeps s (then_ V R p f) (l ++ l').
Proof.
  intros H H' e x k. unfold then_. destruct p as [s1 e1]. cbn [fst] in H'. destruct (f s1) as [s2 e2]. cbn [fst snd] in *. rewrite run_app.
  specialize (H' (run e1 e) x k). cbn [fst snd] in H'. rewrite H', give_all_app. apply give_all_at. specialize (H e x k). cbn [fst snd] in H. exact H.
Qed.
Lemma keeps_id s : keeps s (s, []) []. Proof. intros e x k. reflexivity. Qed.
Lemma flush_keeps s : inv s -> keeps s (flush s) [].
Proof. intros H e x k. rewrite empty_env by (apply flush_empty; exact H). cbn [give_all]. apply flush_gives. exact H. Qed.
Lemma then_fst p (f : state -> state * list (event V R)) : fst (then_ V R p f) = fst (f (fst p)).
Proof. unfold then_. destruct p as [s e]. cbn [fst]. destruct (f s). reflexivity. Qed.
Lemma keeps_same s p l l' : (forall e x k, give_all l e (T x k) = give_all l' e (T x k)) -> keeps s p l -> keeps s p l'.
Proof. intros H K e x k. rewrite <- H. apply K. Qed.

(** A step that keeps everything *)
Definition quiet (f : state -> state * list (event V R)) : Prop := forall s, inv s ->
  inv (fst (f s)) /\ keeps s (f s) [] /\ cat V (fst (f s)) = cat V s /\ (empty s -> empty (fst (f s))).
Lemma quiet_if b : quiet (flush_if V R veq fb ls ss b).
Proof.
  intros s H. unfold flush_if. destruct b; [|split; [exact H|split; [apply keeps_id|split; [reflexivity|auto]]]].
  split; [apply empty_inv; apply flush_empty; exact H|]. split; [apply flush_keeps; exact H|]. split; [apply flush_cat|]. intros _. apply flush_empty. exact H.
Qed.
Lemma place_refl p : place_eqb p p = true. Proof. apply place_eqb_eq. reflexivity. Qed.
Definition ready (c : category) (s : state) : Prop := cat V s = c \/ empty s.
(** Replacing one slot, once the category is right *)
Lemma set_keeps p d (g : slot V -> slot V) s : inv s -> ready (category_of p) s ->
  (forall e x k, give d e (T x k) = if side_eqb (side_at w p) x then over (g (empty_slot V) k) (e (T x k)) else e (T x k)) ->
  (forall f k c, over (g f k) c = over (g (empty_slot V) k) (over (f k) c)) ->
  inv (mark V (category_of p) (set_slot V p (g (slot_of V s p)) s))
  /\ keeps s (mark V (category_of p) (set_slot V p (g (slot_of V s p)) s), []) [d].
Proof.
  intros [I1 I2] Hr Hd Hg. split.
  - split; [discriminate|]. intros l k v H. cbn in H |- *. destruct p as [s0|l0]; [|reflexivity]. cbn in H. exfalso.
    destruct Hr as [Hc|Hc]; [|rewrite Hc in H; discriminate]. apply I2 in H. cbn in Hc. congruence.
  - intros e x k. cbn [fst snd give_all]. rewrite Hd. cbn [env_of mark set_slot slot_of]. unfold run. cbn [map give_all].
    destruct p as [s0|l0]; cbn [place_eqb side_at].
    + assert (N : slot_of V s (L (inverse w x)) k = None).
      { destruct Hr as [Hc|Hc]; [|apply Hc]. destruct (slot_of V s (L (inverse w x)) k) eqn:E; [|reflexivity]. apply I2 in E. cbn in Hc. congruence. }
      rewrite N. cbn [over]. destruct (side_eqb s0 x) eqn:Es; [|reflexivity]. apply side_eqb_eq in Es. subst s0. apply Hg.
    + assert (El : lside_eqb l0 (inverse w x) = side_eqb (w l0) x).
      { rewrite <- (inverse_right w x) at 2 by exact w_proper. symmetry. apply proper_eqb. exact w_proper. }
      rewrite El. destruct (side_eqb (w l0) x) eqn:Es; [|reflexivity]. apply side_eqb_eq in Es. subst x. rewrite (inverse_left w) by exact w_proper. apply Hg.
Qed.
Lemma ready_if p s : inv s -> ready (category_of p) (fst (flush_if V R veq fb ls ss (negb (cat_eqb (category_of p) (cat V s))) s)).
Proof.
  intros H. unfold flush_if. destruct (cat_eqb (category_of p) (cat V s)) eqn:E; cbn [negb].
  - left. apply cat_eqb_eq in E. symmetry. exact E.
  - right. apply flush_empty. exact H.
Qed.
Lemma one_keeps p k v s : inv s -> ready (category_of p) s ->
  inv (mark V (category_of p) (set_slot V p (set_key V k (Some v) (slot_of V s p)) s))
  /\ keeps s (mark V (category_of p) (set_slot V p (set_key V k (Some v) (slot_of V s p)) s), []) [DOne p k v].
Proof.
  intros H Hr. apply (set_keeps p (DOne p k v) (set_key V k (Some v))); [exact H|exact Hr| |].
  - intros e x j. rewrite over_set. unfold give. cbn. destruct (side_eqb (side_at w p) x); [|reflexivity]. destruct (key_eqb k j); reflexivity.
  - intros f j c. rewrite !over_set. destruct (key_eqb k j); reflexivity.
Qed.
Lemma step_property p k v s : inv s -> inv (fst (property V R veq compat fb ls ss p k v s)) /\ keeps s (property V R veq compat fb ls ss p k v s) [DOne p k v]
  /\ cat V (fst (property V R veq compat fb ls ss p k v s)) = category_of p.
Proof.
  intros H. unfold property. set (b := negb (cat_eqb (category_of p) (cat V s))).
  pose proof (ready_if p s H) as R1. destruct (quiet_if b s H) as (I1 & K1 & C1 & E1). fold b in R1.
  set (s1 := fst (flush_if V R veq fb ls ss b s)) in *.
  set (b2 := loses V veq compat (slot_of V s1 p k) v). destruct (quiet_if b2 s1 I1) as (I2 & K2 & C2 & E2).
  assert (R2 : ready (category_of p) (fst (flush_if V R veq fb ls ss b2 s1))).
  { destruct R1 as [R1|R1]; [left; rewrite C2; exact R1|right; apply E2; exact R1]. }
  set (q := then_ V R (flush_if V R veq fb ls ss b s) (fun s => flush_if V R veq fb ls ss (loses V veq compat (slot_of V s p k) v) s)).
  assert (Eq : fst q = fst (flush_if V R veq fb ls ss b2 s1)) by (unfold q; rewrite then_fst; reflexivity).
  assert (Kq : keeps s q []). { apply (keeps_then s _ _ [] []); [exact K1|exact K2]. }
  rewrite then_fst. cbn [fst]. rewrite Eq. destruct (one_keeps p k v _ I2 R2) as [A B]. split; [exact A|]. split; [|reflexivity].
  apply (keeps_then s q _ [] [DOne p k v]); [exact Kq|]. cbn beta. rewrite Eq. exact B.
Qed.
Lemma step_border p b s : inv s -> inv (fst (set_border V R veq fb ls ss p b s)) /\ keeps s (set_border V R veq fb ls ss p b s) [DSide p b].
Proof.
  intros H. unfold set_border. set (c := negb (cat_eqb (category_of p) (cat V s))).
  pose proof (ready_if p s H) as R1. destruct (quiet_if c s H) as (I1 & K1 & C1 & E1). fold c in R1. rewrite then_fst. cbn [fst].
  destruct (set_keeps p (DSide p b) (fun _ => of_border V b) _ I1 R1) as [A B].
  - intros e x k. rewrite place_side. destruct (side_eqb (side_at w p) x); reflexivity.
  - intros f k o. reflexivity.
  - split; [exact A|]. apply (keeps_then s _ _ [] [DSide p b]); [exact K1|exact B].
Qed.
Lemma rect_four k t r b l (e : env) x j :
  give_all [DOne (P Top) k t; DOne (P Right) k r; DOne (P Bottom) k b; DOne (P Left) k l] e (T x j) = give_all [DRect k t r b l] e (T x j).
Proof. cbn [give_all]. unfold give. cbn. destruct x; cbn; destruct (key_eqb k j); reflexivity. Qed.
Lemma pair_two a k s t (e : env) x j : give_all [DOne (L (start_of a)) k s; DOne (L (end_of a)) k t] e (T x j) = give_all [DPair a k s t] e (T x j).
Proof.
  rewrite <- (inverse_right w x) by exact w_proper. set (y := inverse w x). cbn [give_all]. change w with (m true). rewrite give_pair.
  change (L (start_of a)) with (at_side true (start_of a)). change (L (end_of a)) with (at_side true (end_of a)). rewrite !give_one.
  destruct (key_eqb k j); rewrite ?andb_false_r, ?andb_true_r; [|reflexivity]. destruct a, y; reflexivity.
Qed.
Lemma axis_two a b (e : env) x j : give_all [DSide (L (start_of a)) b; DSide (L (end_of a)) b] e (T x j) = give_all [DAxis a b] e (T x j).
Proof.
  rewrite <- (inverse_right w x) by exact w_proper. set (y := inverse w x). cbn [give_all]. change w with (m true). rewrite give_axis.
  change (L (start_of a)) with (at_side true (start_of a)). change (L (end_of a)) with (at_side true (end_of a)). rewrite !give_side.
  destruct a, y; reflexivity.
Qed.
(** ** Images do not matter for sides *)
Lemma image_none l : (forall d : decl, In d l -> match d with DImageOne _ _ | DImage _ _ _ _ _ => True | DRaw i _ => is_image i = true | _ => False end) ->
  forall e x k, give_all l e (T x k) = e (T x k).
Proof.
  induction l as [|d l IH]; intros H e x k; [reflexivity|]. cbn [give_all]. rewrite IH by (intros d' Hd; apply H; right; exact Hd).
  specialize (H d (or_introl eq_refl)). unfold give. destruct d as [| | | | | | | |i u]; try contradiction; try reflexivity. destruct i; try discriminate H; reflexivity.
Qed.
Lemma image_props_only f d : In d (image_props V R f) -> match d with DImageOne _ _ | DImage _ _ _ _ _ => True | DRaw i _ => is_image i = true | _ => False end.
Proof.
  unfold image_props. destruct (f Source), (f Slice), (f ImageWidth), (f Outset), (f Repeat); cbn; intros H; repeat (destruct H as [<-|H]; [exact I|]); destruct H.
Qed.
Lemma map_seen (l : list decl) : map seen (map Main l) = l.
Proof. induction l as [|d l IH]; [reflexivity|]. cbn. rewrite IH. reflexivity. Qed.
Lemma quiet_image : quiet (image_flush V R).
Proof.
  intros s H. unfold image_flush. destruct (image_any V s).
  - cbn [fst snd cat]. split; [exact H|]. split; [|split; [reflexivity|intros E; exact E]].
    intros e x k. cbn [fst snd]. change (env_of s (run (map Main (image_props V R (image V s))) e) (T x k) = env_of s e (T x k)). apply env_at.
    unfold run. rewrite map_seen. apply image_none. apply image_props_only.
  - split; [exact H|]. split; [apply keeps_id|]. split; [reflexivity|auto].
Qed.
Lemma quiet_then f g : quiet f -> quiet g -> quiet (fun s => then_ V R (f s) g).
Proof.
  intros F G s H. destruct (F s H) as (I1 & K1 & C1 & E1). destruct (G _ I1) as (I2 & K2 & C2 & E2). rewrite then_fst. split; [exact I2|]. split.
  - apply (keeps_then s _ _ [] []); assumption.
  - split; [congruence|]. auto.
Qed.
Lemma quiet_id : quiet (fun s => (s, [])).
Proof. intros s H. split; [exact H|]. split; [apply keeps_id|]. split; [reflexivity|auto]. Qed.
Lemma quiet_set f : quiet (fun s => (set_image V (f s) s, [])).
Proof. intros s H. split; [exact H|]. split; [intros e x k; reflexivity|]. split; [reflexivity|]. intros E. exact E. Qed.
Lemma quiet_loses i v : quiet (image_loses V R veq compat i v).
Proof. intros s H. unfold image_loses. destruct (loses V veq compat (image V s i) v); [apply quiet_image; exact H|apply quiet_id; exact H]. Qed.
Lemma push_raw_run fl i u e t : run (snd (push_raw V R ls fl i u)) e t = give (DRaw i u) e t.
Proof.
  unfold push_raw. destruct ls eqn:El; [reflexivity|]. pose proof Hw as Hw'; destruct Hw' as [[? _]|E]; [discriminate|].
  destruct i as [p k|p|a k|a|k| |i|]; try reflexivity; destruct p as [s|[]]; try reflexivity; unfold run, give; cbn; destruct t as [s j|i]; try reflexivity;
    rewrite ?E; cbn; destruct rtl; reflexivity.
Qed.

Notation handle := (handle V R veq compat fb ls ss).
Lemma step s d : inv s -> inv (fst (handle s d)) /\ keeps s (handle s d) [d].
Proof.
  intros H. destruct d as [p k v|p b|a k x y|a b|k t r b l|b|i v|a b c d e|i u]; cbn [BorderModel.handle].
  - destruct (step_property p k v s H) as (A & B & _). auto.
  - apply step_border. exact H.
  - destruct (step_property (L (start_of a)) k x s H) as (A & B & _). destruct (step_property (L (end_of a)) k y _ A) as (A' & B' & _). rewrite then_fst.
    split; [exact A'|]. apply (keeps_same _ _ [DOne (L (start_of a)) k x; DOne (L (end_of a)) k y]); [intros; apply pair_two|].
    apply (keeps_then s _ _ [_] [_]); assumption.
  - destruct (step_border (L (start_of a)) b s H) as (A & B). destruct (step_border (L (end_of a)) b _ A) as (A' & B'). rewrite then_fst.
    split; [exact A'|]. apply (keeps_same _ _ [DSide (L (start_of a)) b; DSide (L (end_of a)) b]); [intros; apply axis_two|].
    apply (keeps_then s _ _ [_] [_]); assumption.
  - destruct (step_property (P Top) k t s H) as (A1 & B1 & _). destruct (step_property (P Right) k r _ A1) as (A2 & B2 & _).
    destruct (step_property (P Bottom) k b _ A2) as (A3 & B3 & _). destruct (step_property (P Left) k l _ A3) as (A4 & B4 & C4).
    set (s1 := fst (property V R veq compat fb ls ss (P Top) k t s)) in *. set (s2 := fst (property V R veq compat fb ls ss (P Right) k r s1)) in *.
    set (s3 := fst (property V R veq compat fb ls ss (P Bottom) k b s2)) in *. set (s4 := fst (property V R veq compat fb ls ss (P Left) k l s3)) in *.
    rewrite then_fst. cbn [fst]. repeat rewrite then_fst. fold s1 s2 s3 s4.
    assert (N : forall l j, slot_of V s4 (L l) j = None).
    { intros l' j. destruct (slot_of V s4 (L l') j) eqn:E; [|reflexivity]. apply A4 in E. cbn in C4. congruence. }
    assert (Z : forall p j, slot_of V (map_slots V (fun p x => match p with L _ => set_key V k None x | P _ => x end) s4) p j = slot_of V s4 p j).
    { intros [x|x] j; cbn; [reflexivity|]. unfold set_key. rewrite N. destruct (key_eqb k j); reflexivity. }
    split.
    + split; [discriminate|]. intros l' j v E. rewrite Z, N in E. discriminate.
    + apply (keeps_same _ _ ([DOne (P Top) k t; DOne (P Right) k r; DOne (P Bottom) k b; DOne (P Left) k l] ++ [])); [intros; rewrite app_nil_r; apply rect_four|].
      apply keeps_then.
      * change [DOne (P Top) k t; DOne (P Right) k r; DOne (P Bottom) k b; DOne (P Left) k l]
          with ((([@DOne V R (P Top) k t] ++ [DOne (P Right) k r]) ++ [DOne (P Bottom) k b]) ++ [DOne (P Left) k l]).
        apply keeps_then; [apply keeps_then; [apply keeps_then|]|]; rewrite ?then_fst; assumption.
      * repeat rewrite then_fst. fold s1 s2 s3 s4. intros e x j. cbn [fst snd give_all env_of]. rewrite !Z. reflexivity.
  - split.
    + split; [discriminate|]. intros l k v E. cbn in E. discriminate.
    + intros e x k. cbn. reflexivity.
  - assert (Q : quiet (fun s => then_ V R (then_ V R (then_ V R (flush_if V R veq fb ls ss (negb (image_prefix V s)) s)
        (fun s => if image_prefix V s then (s, []) else image_flush V R s)) (image_loses V R veq compat i v))
        (fun s => (set_image V (fun j => if ikey_eqb i j then Some v else image V s j) s, [])))).
    { apply (quiet_then (fun s => then_ V R (then_ V R (flush_if V R veq fb ls ss (negb (image_prefix V s)) s)
        (fun s => if image_prefix V s then (s, []) else image_flush V R s)) (image_loses V R veq compat i v))); [|apply quiet_set].
      apply (quiet_then (fun s => then_ V R (flush_if V R veq fb ls ss (negb (image_prefix V s)) s)
        (fun s => if image_prefix V s then (s, []) else image_flush V R s))); [|apply quiet_loses].
      apply (quiet_then (fun s => flush_if V R veq fb ls ss (negb (image_prefix V s)) s)).
      - intros s' H'. apply quiet_if. exact H'.
      - intros s' H'. destruct (image_prefix V s'); [apply quiet_id; exact H'|apply quiet_image; exact H']. }
    destruct (Q s H) as (A & B & _). split; [exact A|]. intros e x k. rewrite B. reflexivity.
  - assert (Q : quiet (fun s => handle s (DImage a b c d e))).
    { cbn [BorderModel.handle].
      repeat match goal with |- quiet (fun s => then_ V R (@?f s) ?g) => apply (quiet_then f g) end; try apply quiet_loses.
      apply quiet_set. }
    destruct (Q s H) as (A & B & _). split; [exact A|]. intros e' x k. rewrite B. reflexivity.
  - destruct (is_image i) eqn:Ei.
    + assert (Q : quiet (fun s => then_ V R (flush s) (image_flush V R))).
      { apply (quiet_then flush); [intros s' H'; apply (quiet_if true); exact H'|apply quiet_image]. }
      destruct (Q s H) as (A & B & _). rewrite then_fst. cbn [fst]. split; [exact A|]. apply (keeps_then s _ _ [] [_]); [exact B|].
      intros e x k. cbn [fst snd]. cbn [give_all]. unfold run. cbn [map seen give_all]. unfold give. destruct i; try discriminate Ei; reflexivity.
    + destruct (quiet_if true s H) as (A & B & C & E). unfold flush_if in A, B, C, E. rewrite then_fst.
      pose proof (flush_empty s H) as Ne. set (s1 := fst (flush s)) in *.
      destruct (push_raw V R ls (done V s1) i u) as [fl ev] eqn:Ep. cbn [fst]. split; [exact A|].
      apply (keeps_then s _ _ [] [_]); [exact B|]. cbn beta. fold s1. rewrite Ep. intros e x k. cbn [fst snd give_all].
      assert (E1 : env_of (State V (slot_of V s1) (cat V s1) (has_any V s1) fl (image V s1) (image_any V s1) (image_prefix V s1)) (run ev e) (T x k) = run ev e (T x k)).
      { apply empty_env. exact Ne. }
      rewrite E1. pose proof (push_raw_run (done V s1) i u e (T x k)) as P1. rewrite Ep in P1. cbn [snd] in P1. rewrite P1.
      apply give_at. symmetry. apply empty_env. exact Ne.
Qed.
Lemma steps l : forall s, inv s -> inv (fst (handle_all V R veq compat fb ls ss s l)) /\ keeps s (handle_all V R veq compat fb ls ss s l) l.
Proof.
  induction l as [|d l IH]; intros s H; cbn [handle_all].
  - split; [exact H|apply keeps_id].
  - destruct (step s d H) as [A B]. destruct (IH _ A) as [A' B']. rewrite then_fst. split; [exact A'|]. apply (keeps_then s _ _ [d] l); assumption.
Qed.
Theorem trace_used c l e x k : run (minify V R veq compat fb ls ss c l) e (T x k) = give_all l e (T x k).
Proof.
  unfold minify. assert (H : inv (start V c)) by (apply empty_inv; intros p j; reflexivity).
  destruct (steps l _ H) as [A B]. set (q := handle_all V R veq compat fb ls ss (start V c) l) in *.
  assert (K : keeps (start V c) (then_ V R (then_ V R q flush) (image_flush V R)) (l ++ [])).
  { destruct (quiet_if true _ A) as (A1 & B1 & _). unfold flush_if in A1, B1. destruct (quiet_image _ A1) as (A2 & B2 & _).
    replace (l ++ []) with ((l ++ []) ++ []) by (rewrite !app_nil_r; reflexivity).
    apply keeps_then; [apply keeps_then; [exact B|exact B1]|]. rewrite then_fst. exact B2. }
  rewrite app_nil_r in K. specialize (K e x k). rewrite empty_env in K.
  - rewrite K. apply give_all_at. apply empty_env. intros p j. reflexivity.
  - rewrite then_fst, then_fst. intros p j. pose proof (flush_empty _ A p j) as N. unfold image_flush. destruct (image_any V (fst (flush (fst q)))); exact N.
Qed.
End Proofs.
