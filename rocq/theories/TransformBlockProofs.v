(** * Proofs about blocks with transform properties *)
From Coq Require Import List Bool.
From Verif Require Import PrefixModel TransformBlockModel TransformBlockSpec.
Import ListNotations.

Lemma which_eqb_iff a b : which_eqb a b = true <-> a = b.
Proof. destruct a, b; cbn; split; congruence. Qed.
Lemma pfx_eqb_iff a b : pfx_eqb a b = true <-> a = b.
Proof. destruct a, b; cbn; split; congruence. Qed.
Lemma has_single p q : has (single p) q = pfx_eqb p q.
Proof. destruct p, q; reflexivity. Qed.
Lemma has_union a b p : has (union a b) p = has a p || has b p.
Proof. destruct p; reflexivity. Qed.
Lemma includes_single s p : includes s (single p) = has s p.
Proof. destruct p, s as [[] [] [] [] []]; reflexivity. Qed.
Lemma union_single p : union (single p) (single p) = single p.
Proof. destruct p; reflexivity. Qed.

Section Proofs.
Context {T V U : Type}.
Variable to_transform : V -> T.
Variable leq : list T -> list T -> bool.
Hypothesis leq_iff : forall a b, leq a b = true <-> a = b.
Variable t : targets.
Notation decl := (decl T V U).
Notation flush := (flush T V U t).
Notation handle := (handle T V U to_transform leq t).
Notation minify := (minify T V U to_transform leq t).
Notation start := (start T V U).
Implicit Types (s : state T V U) (l : list decl) (d : decl).

(** ** Lists *)
Definition used_from p := fold_left (fun o (d : decl) => match gives p d with Some c => Some c | None => o end).
Definition iused_from w := fold_left (fun o (d : decl) => match igives w d with Some c => Some c | None => o end).
Lemma used_app p l m : used p (l ++ m) = used_from p m (used p l).
Proof. apply fold_left_app. Qed.
Lemma iused_app w l m : iused w (l ++ m) = iused_from w m (iused w l).
Proof. apply fold_left_app. Qed.
Lemma others_app l m : others (l ++ m) = others l ++ others m.
Proof. apply flat_map_app. Qed.

Definition pending s : list decl :=
  match transform s with Some (l, p) => [Transform l (prefixes t p 0)] | None => [] end
  ++ flat_map (fun w => match single_values s w with Some v => [Individual w v] | None => [] end) [WTranslate; WRotate; WScale].
Definition tidy s : Prop := has_any s = false -> transform s = None /\ single_values s = empty V.
Lemma flush_dest s : tidy s -> dest (flush s) = dest s ++ pending s.
Proof.
  unfold TransformBlockModel.flush, pending. destruct (has_any s) eqn:E; [reflexivity|]. intros H. destruct (H E) as [-> ->]. cbn. now rewrite app_nil_r.
Qed.
Lemma flush_tidy s : tidy s -> transform (flush s) = None /\ single_values (flush s) = empty V /\ tidy (flush s).
Proof. intros H. unfold TransformBlockModel.flush. destruct (has_any s) eqn:E; [|destruct (H E); now auto]. split; [reflexivity|]. split; [reflexivity|]. now intros _. Qed.
Lemma handle_tidy s d : tidy s -> tidy (handle s d).
Proof.
  intros H. destruct d as [l p|w v|w u p|n]; cbn [TransformBlockModel.handle]; cbv zeta.
  - set (s' := match transform s with Some (cur, ps) => if negb (leq cur l) && negb (includes ps p) then flush s else s | None => s end).
    assert (tidy s') as H'.
    { unfold s'. destruct (transform s) as [[cur ps]|]; [|exact H]. destruct (_ && _); [|exact H]. now apply flush_tidy. }
    destruct (transform s') as [[cur ps]|] eqn:E; intros N; cbn in *; [|discriminate]. destruct (H' N) as [K _]. congruence.
  - destruct (transform s) as [[l ps]|] eqn:E; intros N; cbn in *; [|discriminate]. destruct (H N) as [K _]. congruence.
  - destruct (flush_tidy s H) as (A & B & C). intros N. cbn in *. auto.
  - intros N. cbn in *. auto.
Qed.
Lemma run_tidy l : tidy (fold_left handle l start).
Proof.
  assert (forall s, tidy s -> tidy (fold_left handle l s)) as H; [|apply H; now intros _].
  induction l as [|d l IH]; [auto|]. intros s H. apply IH. now apply handle_tidy.
Qed.
(** What the block would be if it ended here *)
Definition view s : list decl := dest s ++ pending s.
Lemma minify_view l : minify l = view (fold_left handle l start).
Proof. unfold TransformBlockModel.minify. apply flush_dest. apply run_tidy. Qed.

Lemma iused_pending w s o : iused_from w (pending s) o = match single_values s w with Some v => Some (IVal v) | None => o end.
Proof.
  unfold pending, iused_from. rewrite fold_left_app.
  replace (fold_left _ (match transform s with Some (l, p) => [Transform l (prefixes t p 0)] | None => [] end) o) with o by (destruct (transform s) as [[]|]; reflexivity).
  cbn [flat_map]. rewrite app_nil_r, !fold_left_app.
  destruct w; destruct (single_values s WTranslate), (single_values s WRotate), (single_values s WScale); reflexivity.
Qed.
Lemma used_pending p s o : used_from p (pending s) o = match transform s with Some (l, ps) => if has (prefixes t ps 0) p then Some (CList l) else o | None => o end.
Proof.
  unfold pending, used_from. rewrite fold_left_app.
  assert (forall o, fold_left (fun o (d : decl) => match gives p d with Some c => Some c | None => o end)
    (flat_map (fun w => match single_values s w with Some v => [Individual w v] | None => [] end) [WTranslate; WRotate; WScale]) o = o) as E.
  { intros o'. cbn [flat_map]. destruct (single_values s WTranslate), (single_values s WRotate), (single_values s WScale); reflexivity. }
  rewrite E. destruct (transform s) as [[l ps]|]; [|reflexivity]. cbn. now destruct (has _ p).
Qed.
Lemma others_pending s : others (pending s) = [].
Proof.
  unfold pending. rewrite others_app. cbn [flat_map]. rewrite app_nil_r, !others_app.
  destruct (transform s) as [[]|]; destruct (single_values s WTranslate), (single_values s WRotate), (single_values s WScale); reflexivity.
Qed.
Lemma others_kept l : others (minify l) = others l.
Proof.
  rewrite minify_view. unfold view. rewrite others_app, others_pending, app_nil_r.
  assert (forall s, tidy s -> others (dest (fold_left handle l s)) = others (dest s) ++ others l) as H; [|apply (H start); now intros _].
  induction l as [|d l IH]; intros s Hs; [now rewrite app_nil_r|]. cbn [fold_left]. rewrite IH by now apply handle_tidy.
  replace (others (d :: l)) with (others [d] ++ others l) by (rewrite <- others_app; reflexivity). rewrite app_assoc. f_equal. clear IH.
  assert (others (dest (flush s)) = others (dest s)) as F by (rewrite (flush_dest s Hs), others_app, others_pending; apply app_nil_r).
  destruct d as [l' p|w v|w u p|n]; cbn [TransformBlockModel.handle]; cbv zeta.
  - set (s' := match transform s with Some (cur, ps) => if negb (leq cur l') && negb (includes ps p) then flush s else s | None => s end).
    assert (others (dest s') = others (dest s)) as F'.
    { unfold s'. destruct (transform s) as [[cur ps]|]; [|reflexivity]. now destruct (_ && _). }
    destruct (transform s') as [[cur ps]|]; cbn [dest]; now rewrite F', app_nil_r.
  - destruct (transform s) as [[l' ps]|]; cbn [dest]; now rewrite app_nil_r.
  - cbn [dest]. rewrite others_app, F. f_equal. now destruct w.
  - cbn [dest]. now rewrite others_app.
Qed.

(** ** Individual properties only *)
Lemma individual_kept l w : Forall no_transform l -> iused w (minify l) = iused w l.
Proof.
  rewrite minify_view.
  assert (forall s, tidy s -> transform s = None -> Forall no_transform l -> iused w (view (fold_left handle l s)) = iused_from w l (iused w (view s))) as H.
  - induction l as [|d l IH]; intros s Hs Hn F; [reflexivity|]. apply Forall_cons_iff in F as [N F]. cbn [fold_left].
    assert (transform (handle s d) = None /\ iused w (view (handle s d)) = iused_from w [d] (iused w (view s))) as [E1 E2].
    { destruct d as [l' p|w' v|[w'|] u p|n]; try contradiction; cbn [TransformBlockModel.handle]; cbv zeta.
      - rewrite Hn. split; [reflexivity|]. unfold view. rewrite !iused_app, !iused_pending. cbn [dest single_values set iused_from fold_left igives].
        unfold set. destruct (which_eqb w' w); reflexivity.
      - destruct (flush_tidy s Hs) as (A & B & _). split; [exact A|]. unfold view. rewrite !iused_app, !iused_pending. cbn [dest single_values].
        rewrite B. cbn [empty]. rewrite (flush_dest s Hs), !iused_app, iused_pending. reflexivity.
      - split; [exact Hn|]. unfold view. rewrite !iused_app, !iused_pending. cbn [dest single_values]. rewrite iused_app. reflexivity. }
    rewrite (IH _ (handle_tidy s d Hs) E1 F), E2. reflexivity.
  - intros F. rewrite (H start (fun _ => conj eq_refl eq_refl) eq_refl F). reflexivity.
Qed.

(** ** [transform] without prefixes *)
Lemma unprefixed_kept l p : Forall no_individual l -> Forall unprefixed l -> has (prefixes t (single NoPrefix) 0) p = true -> used p (minify l) = used NoPrefix l.
Proof.
  intros Fi Fu Hp. rewrite minify_view.
  assert (forall s, tidy s -> (forall v ps, transform s = Some (v, ps) -> ps = single NoPrefix) ->
    used p (view (fold_left handle l s)) = used_from NoPrefix l (used p (view s))) as H.
  - revert Fi Fu. induction l as [|d l IH]; intros Fi Fu s Hs Ht; [reflexivity|]. apply Forall_cons_iff in Fi as [I Fi]. apply Forall_cons_iff in Fu as [N Fu]. cbn [fold_left].
    assert ((forall v ps, transform (handle s d) = Some (v, ps) -> ps = single NoPrefix) /\ used p (view (handle s d)) = used_from NoPrefix [d] (used p (view s))) as [E1 E2].
    { destruct d as [l' q|w' v|w' u q|n]; [|contradiction| |]; cbn [TransformBlockModel.handle]; cbv zeta.
      - cbn [unprefixed] in N. subst q. destruct (transform s) as [[cur ps]|] eqn:E.
        + pose proof (Ht _ _ eq_refl) as ->. rewrite includes_single. cbn [has single pfx_eqb none negb]. rewrite andb_false_r, E. split; [intros v ps [= _ <-]; apply union_single|].
          unfold view. rewrite !used_app, !used_pending. cbn [dest transform]. rewrite E, union_single, Hp. reflexivity.
        + rewrite E. split; [intros v ps [= _ <-]; reflexivity|]. unfold view. rewrite !used_app, !used_pending. cbn [dest transform]. rewrite E, Hp. reflexivity.
      - destruct (flush_tidy s Hs) as (A & _ & _). split; [cbn [transform]; rewrite A; discriminate|]. unfold view. rewrite !used_app, !used_pending. cbn [dest transform].
        rewrite A, (flush_dest s Hs), !used_app, used_pending. destruct w' as [w'|]; [reflexivity|]. cbn [unprefixed] in N. subst q. cbn [used_from fold_left gives]. rewrite Hp. reflexivity.
      - split; [exact Ht|]. unfold view. rewrite !used_app, !used_pending. cbn [dest transform]. rewrite used_app. reflexivity. }
    rewrite (IH Fi Fu _ (handle_tidy s d Hs) E1), E2. reflexivity.
  - rewrite (H start (fun _ => conj eq_refl eq_refl)); [reflexivity|discriminate].
Qed.

(** ** [transform] with prefixes as they are *)
Hypothesis as_is : forall ps, prefixes t ps 0 = ps.
Lemma steady_kept l p : Forall no_individual l -> Forall written l -> steady l -> used p (minify l) = used p l.
Proof.
  intros Fi Fw St. rewrite minify_view. revert p.
  induction l as [|d l IH] using rev_ind; [intros p; reflexivity|]. intros p. rewrite fold_left_app. cbn [fold_left].
  apply Forall_app in Fi as [Fi Ni]. apply Forall_app in Fw as [Fw Nw]. apply Forall_inv in Ni. apply Forall_inv in Nw.
  assert (steady l) as St'.
  { intros l1 v q l2 E. apply (St l1 v q (l2 ++ [d])). rewrite E, <- app_assoc. reflexivity. }
  specialize (IH Fi Fw St'). pose proof (run_tidy l) as Hs. set (s := fold_left handle l start) in *. unfold view in *.
  rewrite used_app, used_pending. rewrite (used_app p l [d]). cbn [used_from fold_left].
  assert (forall q, used q l = match transform s with Some (v, ps) => if has ps q then Some (CList v) else used q (dest s) | None => used q (dest s) end) as IH'.
  { intros q. rewrite <- IH, used_app, used_pending. destruct (transform s) as [[v ps]|]; [|reflexivity]. now rewrite as_is. }
  destruct d as [v q|w v|w u q|n]; [|contradiction| |].
  - destruct Nw as [q' ->]. rename q' into q. cbn [TransformBlockModel.handle gives]. cbv zeta. destruct (transform s) as [[cur ps]|] eqn:E.
    + rewrite includes_single. destruct (leq cur v) eqn:L; cbn [negb andb].
      * apply leq_iff in L as ->. rewrite E. cbn [transform dest]. rewrite as_is, has_union, IH'. destruct (has (single q) p); [now rewrite orb_true_r|]. now rewrite orb_false_r.
      * destruct (has ps q) eqn:H; cbn [negb].
        -- rewrite E. cbn [transform dest]. rewrite as_is, has_union, IH'. destruct (has (single q) p) eqn:Hq; [now rewrite orb_true_r|]. rewrite orb_false_r.
           destruct (has ps p) eqn:Hp; [|reflexivity]. exfalso.
           assert (used q l = Some (CList cur)) as Uq by now rewrite IH', H.
           refine (St l v q [] eq_refl cur Uq _ p _ _).
           ++ intros ->. rewrite (proj2 (leq_iff v v) eq_refl) in L. discriminate.
           ++ intros ->. rewrite has_single in Hq. rewrite (proj2 (pfx_eqb_iff q q) eq_refl) in Hq. discriminate.
           ++ now rewrite IH', Hp.
        -- destruct (flush_tidy s Hs) as (A & _ & _). rewrite A. cbn [transform dest]. rewrite as_is, (flush_dest s Hs), used_app, used_pending, E, as_is, IH'. now destruct (has (single q) p).
    + rewrite E. cbn [transform dest]. rewrite as_is, IH'. now destruct (has (single q) p).
  - cbn [TransformBlockModel.handle]. cbv zeta. destruct (flush_tidy s Hs) as (A & _ & _). cbn [transform dest]. rewrite A, used_app, (flush_dest s Hs), used_app, used_pending.
    destruct w as [w|]; cbn [used_from fold_left gives]; rewrite ?as_is, IH'; destruct (transform s) as [[v ps]|]; rewrite ?as_is; reflexivity.
  - cbn [TransformBlockModel.handle transform dest]. rewrite used_app. cbn [used_from fold_left gives]. rewrite IH'. destruct (transform s) as [[v ps]|]; rewrite ?as_is; reflexivity.
Qed.
End Proofs.

(** ** The effect of [transform] followed by individual properties *)
Section Effect.
Context {T V U : Type}.
Variable to_transform : V -> T.
Variable leq : list T -> list T -> bool.
Variable t : targets.
Hypothesis table : has (prefixes t (single NoPrefix) 0) NoPrefix = true.
Variable E : Type.
Variable then_ : E -> E -> E.
Variable unit : E.
Variable function : T -> E.
Variable individual : V -> option E.
Hypothesis assoc : forall a b c, then_ a (then_ b c) = then_ (then_ a b) c.
Hypothesis unit_left : forall a, then_ unit a = a.
Hypothesis unit_right : forall a, then_ a unit = a.
Notation functions := (functions E then_ unit function).
Notation total := (@total T V U E then_ unit function individual).
Notation opt := (@opt T V U).
Notation proper := (@proper T V E then_ unit function individual to_transform).
Definition push (o : option V) : list T := match o with Some v => [to_transform v] | None => [] end.
Lemma functions_app a b : functions (a ++ b) = then_ (functions a) (functions b).
Proof. induction a as [|x a IH]; cbn [app TransformBlockSpec.functions fold_right]; [now rewrite unit_left|]. unfold TransformBlockSpec.functions in *. now rewrite IH, assoc. Qed.
Lemma minify_stacked l a b c :
  minify T V U to_transform leq t (Transform l (single NoPrefix) :: opt WTranslate a ++ opt WRotate b ++ opt WScale c)
  = [Transform (l ++ push a ++ push b ++ push c) (prefixes t (single NoPrefix) 0)].
Proof. destruct a, b, c; cbn; rewrite <- ?app_assoc, ?app_nil_r; reflexivity. Qed.
Lemma part_some x l : transform_part E then_ unit function (Some (@CList T U (x :: l))) = Some (functions (x :: l)).
Proof. reflexivity. Qed.
Lemma part_app l m : m <> [] -> transform_part E then_ unit function (Some (@CList T U (l ++ m))) = Some (then_ (functions l) (functions m)).
Proof. intros N. rewrite <- functions_app. destruct l as [|x l]; [|reflexivity]. destruct m; [now elim N|reflexivity]. Qed.
Lemma join_none o : join E then_ None o = o.
Proof. reflexivity. Qed.
Lemma join_part x l : join E then_ (Some x) (transform_part E then_ unit function (Some (@CList T U l))) = Some (then_ x (functions l)).
Proof. destruct l as [|y l]; [|reflexivity]. cbn. now rewrite unit_right. Qed.
Lemma commute_list l m : Forall (fun x => then_ (functions l) (function x) = then_ (function x) (functions l)) m -> then_ (functions l) (functions m) = then_ (functions m) (functions l).
Proof.
  induction 1 as [|x m H _ IH]; cbn [TransformBlockSpec.functions fold_right]; [now rewrite unit_right, unit_left|].
  unfold TransformBlockSpec.functions in *. now rewrite assoc, H, <- assoc, IH, assoc.
Qed.
Lemma stacked l a b c : proper l a -> proper l b -> proper l c ->
  let block := Transform l (single NoPrefix) :: opt WTranslate a ++ opt WRotate b ++ opt WScale c in
  total (minify T V U to_transform leq t block) = total block.
Proof.
  intros A B C. cbv zeta. rewrite minify_stacked.
  assert (total [Transform (l ++ push a ++ push b ++ push c) (prefixes t (single NoPrefix) 0)]
    = transform_part E then_ unit function (Some (@CList T U (l ++ push a ++ push b ++ push c)))) as ->.
  { unfold TransformBlockSpec.total. cbn [iused fold_left igives individual_part join used gives]. now rewrite table. }
  assert (total (Transform l (single NoPrefix) :: opt WTranslate a ++ opt WRotate b ++ opt WScale c)
    = join E then_ (match a with Some v => individual v | None => None end) (join E then_ (match b with Some v => individual v | None => None end)
        (join E then_ (match c with Some v => individual v | None => None end) (transform_part E then_ unit function (Some (@CList T U l)))))) as ->.
  { unfold TransformBlockSpec.total. destruct a, b, c; reflexivity. }
  destruct a as [va|], b as [vb|], c as [vc|]; cbn [push app TransformBlockSpec.proper] in *;
    repeat match goal with H : _ /\ _ |- _ => destruct H as [-> ?] end; rewrite ?join_none, ?join_part; cbn [join];
    rewrite ?app_nil_r; try reflexivity; rewrite part_app by discriminate; f_equal; rewrite commute_list by (repeat (apply Forall_cons; [assumption|]); apply Forall_nil);
    unfold TransformBlockSpec.functions at 1; cbn [fold_right]; rewrite unit_right, <- ?assoc; reflexivity.
Qed.
End Effect.
