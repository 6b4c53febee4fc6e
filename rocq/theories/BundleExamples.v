(** * Concrete files for the examples and refutations of the bundler properties *)
From Coq Require Import List Bool Arith String Lia.
From Verif Require Import MediaModel MediaSpec BundleModel BundleSpec.
Import ListNotations.
Open Scope string_scope.

(** supports conditions with their boolean structure *)
Inductive sup := SAtom (n : nat) | SAnd (a b : sup) | SOr (a b : sup).
Fixpoint sup_eval (e : nat -> bool) (s : sup) : bool :=
  match s with SAtom n => e n | SAnd a b => sup_eval e a && sup_eval e b | SOr a b => sup_eval e a || sup_eval e b end.

Notation ex_rule := (srule mlist sup).
Notation ex_conds := (conds mlist sup).
Notation ex_loads := (loads mlist sup [] mlist_empty list_and list_or SAnd SOr).
Notation ex_run := (load_run mlist sup [] mlist_empty list_and list_or SAnd SOr).
Notation ex_init := (load_init mlist sup []).
Notation ex_bundle := (bundle_sheets mlist sup []).

Definition always : ex_conds := Conds [] None None.
Definition on_print : ex_conds := Conds [MQ None MPrint None] None None.
Definition if_supports (n : nat) : ex_conds := Conds [] (Some (SAtom n)) None.
Definition into (l : option layer_name) : ex_conds := Conds [] None (Some l).
Definition imp (p : path) : ex_rule := SImport (TFile p) always.
Definition imp_if (p : path) (c : ex_conds) : ex_rule := SImport (TFile p) c.
Definition style (n : nat) : ex_rule := SRule n [].
Definition composing (n : nat) (p : path) : ex_rule := SRule n [TFile p].

Definition files_of (l : list (list ex_rule)) (p : path) : option (list ex_rule) := nth_error l p.

(** 0 imports 1 and 2, which both import 3 *)
Definition diamond := files_of [[imp 1; imp 2; style 0]; [imp 3; style 1]; [imp 3; style 2]; [SLayer [["x"]]; style 3]].
(** 0 imports 1 for print, in layer x, which imports 2 in layer y *)
Definition conditional := files_of
  [[imp_if 1 (Conds [MQ None MPrint None] None (Some (Some ["x"]))); style 0];
   [imp_if 2 (Conds [] (Some (SAtom 7)) (Some (Some ["y"]))); style 1]; [SLayer [["z"]]; style 2]].
(** 0 imports 1, and 1 and 2 import each other *)
Definition cycle := files_of [[imp 1; style 0]; [imp 2; style 1]; [imp 1; style 2]].
(** 0 and 1 import each other *)
Definition entry_cycle := files_of [[imp 1; style 0]; [imp 0; style 1]].
(** an import after an unknown at-rule *)
Definition late := files_of [[style 9; imp 1; style 0]; [style 1]].
(** 0 imports 1, 2 and 1 again; 1 and 2 import 3 *)
Definition aba := files_of [[imp 1; imp 2; imp 1; style 0]; [imp 3; style 1]; [imp 3; style 2]; [style 3]].
(** 0 imports 1, 2 and 1 again; 1 and 2 declare layers *)
Definition layers := files_of [[imp 1; imp 2; imp 1; style 0]; [SLayer [["x"]]; style 1]; [SLayer [["y"]]; style 2]].
(** 0 composes a class of itself *)
Definition self_composes := files_of [[composing 0 0]].
(** 0 composes from 1 and 1 from 0 *)
Definition composes_cycle := files_of [[composing 0 1]; [composing 1 0]].
(** 0 imports 1 for print, and 2; 2 imports 1; 1 imports 3 *)
Definition narrowed := files_of [[imp_if 1 on_print; imp 2; style 0]; [imp 3; style 1]; [imp 1; style 2]; [style 3]].
(** 0 imports 1 for print, and 1 imports an external sheet *)
Definition external := files_of [[imp_if 1 on_print; style 0]; [SImport (TExternal "u") always; style 1]].
(** 0 imports 1, then 1 again in layer x *)
Definition relayered := files_of [[imp 1; imp_if 1 (into (Some ["x"])); style 0]; [style 1]].
(** 0 imports 1 into the layer x twice *)
Definition same_layer := files_of [[imp_if 1 (into (Some ["x"])); imp_if 1 (into (Some ["x"])); style 0]; [style 1]].
(** 0 imports 1 in an anonymous layer, and 1 imports 2 *)
Definition anonymous_layer := files_of [[imp_if 1 (into None); style 0]; [imp 2; style 1]; [style 2]].
(** 0 imports 1, 2 and 3, which import 4 under different conditions *)
Definition clash := files_of
  [[imp 1; imp 2; imp 3; style 0]; [imp_if 4 (if_supports 1); style 1]; [imp 4; style 2]; [imp_if 4 on_print; style 3]; [style 4]].

(** a graph whose references go to greater numbers *)
Lemma reach_ge : forall (read : path -> option (list ex_rule)) m,
    (forall s d, refers read m s d -> s < d) -> forall p q, reach read m p q -> p <= q.
Proof. intros read m H p q R. induction R as [|s d R IH E]; [lia|]. specialize (H _ _ E). unfold path in *. lia. Qed.
Lemma avoid_ge : forall (read : path -> option (list ex_rule)) m e,
    (forall s d, refers read m s d -> s < d) -> forall p q, reach_avoiding read m e p q -> p <= q.
Proof. intros read m e H p q R. induction R as [|s d R IH E]; [lia|]. specialize (H _ _ E). unfold path in *. lia. Qed.
Lemma increasing_acyclic : forall (read : path -> option (list ex_rule)) m e,
    (forall s d, refers read m s d -> s < d) -> acyclic read m e.
Proof.
  intros read m e H p _ (x & R1 & R2). apply (reach_ge _ _ H) in R2. specialize (H _ _ R1). unfold path in *. lia.
Qed.
Lemma increasing_no_cycle : forall (read : path -> option (list ex_rule)) m e,
    (forall s d, refers read m s d -> s < d) -> no_import_cycle read m e.
Proof.
  intros read m e H p q _ Hi R. apply (avoid_ge _ _ _ H) in R. specialize (H p q (or_introl Hi)). unfold path in *. lia.
Qed.
Ltac small_path p := destruct p as [|[|[|[|[|p]]]]].
Ltac by_files :=
  repeat match goal with
  | H : exists _, _ |- _ => destruct H
  | H : _ \/ _ |- _ => destruct H
  | H : False |- _ => destruct H
  | H : (_, _) = (_, _) |- _ => inversion H; clear H; subst
  | H : Some _ = Some _ |- _ => inversion H; clear H; subst
  | H : None = Some _ |- _ => discriminate H
  end.
Lemma diamond_up : forall s d, refers diamond false s d -> s < d.
Proof.
  intros s d [[c H]|H]; small_path s; cbn in H; by_files; unfold path in *; try lia.
  all: destruct s; cbn in H; destruct H.
Qed.
Lemma conditional_up : forall s d, refers conditional false s d -> s < d.
Proof.
  intros s d [[c H]|H]; small_path s; cbn in H; by_files; unfold path in *; try lia.
  all: destruct s; cbn in H; destruct H.
Qed.
Lemma leads_all : forall (l : list (list ex_rule)), Forall imports_lead l ->
    forall p rs, files_of l p = Some rs -> imports_lead rs.
Proof. intros l H p rs E. rewrite Forall_forall in H. apply H. unfold files_of in E. eapply nth_error_In; eauto. Qed.
Lemma self_inline : forall n, ex_bundle true n [Sheet 0 always [composing 0 0]] = IFuel.
Proof.
  intros [|n]; [reflexivity|].
  change (inline_process mlist sup [] (sheet_css mlist sup true [Sheet 0 always [composing 0 0]])
            (sheet_deps mlist sup [Sheet 0 always [composing 0 0]]) (nth_rules mlist sup [Sheet 0 always [composing 0 0]])
            (sheet_conds mlist sup [] [Sheet 0 always [composing 0 0]]) (fun _ => (0, 0)) (Datatypes.S n) 0 (IState [] [] []) = IFuel).
  generalize (@IState mlist sup [] [] []). generalize (Datatypes.S n) as m. induction m as [|m IH]; intros st; [reflexivity|].
  cbn [inline_process]. change (sheet_css mlist sup true [Sheet 0 always [composing 0 0]] 0) with [0]. cbn [inline_css].
  change (is_parent (fun _ : nat => (0, 0)) 0 0 0) with true. cbv iota. rewrite IH. reflexivity.
Qed.
Lemma diamond_private : forall p x s, shared diamond false 0 p -> below diamond false p x -> reach diamond false 0 s ->
    imports_file diamond s x -> s = p \/ below diamond false p s.
Proof.
  intros p x s (s1 & k1 & s2 & k2 & _ & _ & Hne & H1 & H2) (m & Hm & _) _ _. exfalso.
  assert (p = 3).
  { small_path s1; small_path s2; cbn in H1, H2; destruct k1 as [|[|[|k1]]], k2 as [|[|[|k2]]]; cbn in H1, H2; congruence || idtac.
    all: try (destruct s1; cbn in H1; destruct k1; discriminate H1).
    all: try (destruct s2; cbn in H2; destruct k2; discriminate H2).
    all: try (destruct k1; discriminate H1). all: try (destruct k2; discriminate H2). }
  subst p. destruct Hm as [[c H]|H]; cbn in H; destruct H.
Qed.
Lemma diamond_expands : expands diamond 0 [3; 1; 3; 2; 0].
Proof.
  assert (E3 : expands diamond 3 [3]) by (apply (X_file diamond 3 []); constructor).
  assert (E1 : expands diamond 1 [3; 1]).
  { apply (X_file diamond 1 [3]). apply (X_cons diamond 3 [] [3] []); [assumption|constructor]. }
  assert (E2 : expands diamond 2 [3; 2]).
  { apply (X_file diamond 2 [3]). apply (X_cons diamond 3 [] [3] []); [assumption|constructor]. }
  apply (X_file diamond 0 [3; 1; 3; 2]). apply (X_cons diamond 1 [2] [3; 1] [3; 2]); [assumption|].
  apply (X_cons diamond 2 [] [3; 2] []); [assumption|constructor].
Qed.
Lemma aba_expands : expands aba 0 [3; 1; 3; 2; 3; 1; 0].
Proof.
  assert (E3 : expands aba 3 [3]) by (apply (X_file aba 3 []); constructor).
  assert (E1 : expands aba 1 [3; 1]).
  { apply (X_file aba 1 [3]). apply (X_cons aba 3 [] [3] []); [assumption|constructor]. }
  assert (E2 : expands aba 2 [3; 2]).
  { apply (X_file aba 2 [3]). apply (X_cons aba 3 [] [3] []); [assumption|constructor]. }
  apply (X_file aba 0 [3; 1; 3; 2; 3; 1]). apply (X_cons aba 1 [2; 1] [3; 1] [3; 2; 3; 1]); [assumption|].
  apply (X_cons aba 2 [1] [3; 2] [3; 1]); [assumption|]. apply (X_cons aba 1 [] [3; 1] []); [assumption|constructor].
Qed.
Lemma layers_expands : expands layers 0 [1; 2; 1; 0].
Proof.
  assert (E1 : expands layers 1 [1]) by (apply (X_file layers 1 []); constructor).
  assert (E2 : expands layers 2 [2]) by (apply (X_file layers 2 []); constructor).
  apply (X_file layers 0 [1; 2; 1]). apply (X_cons layers 1 [2; 1] [1] [2; 1]); [assumption|].
  apply (X_cons layers 2 [1] [2] [1]); [assumption|]. apply (X_cons layers 1 [] [1] []); [assumption|constructor].
Qed.
Lemma conditional_single : forall q, ~ named_twice conditional false 0 q.
Proof.
  intros q (ps & a & b & c & Hn & Hr & E).
  assert (Hl : forall p, In p ps -> p <= 2).
  { intros p Hp. rewrite Forall_forall in Hr. specialize (Hr p Hp). clear - Hr.
    induction Hr as [|s d H IH [[x R]|R]]; [lia| |];
      (destruct s as [|[|[|s]]]; [| | |unfold path in *; lia]); cbn in R; by_files; unfold path in *; lia. }
  assert (Hf : forall p, In p (flat_map (refs conditional false) ps) -> 0 < p).
  { intros p Hp. apply in_flat_map in Hp as (s & _ & Hs). unfold refs in Hs. rewrite app_nil_r in Hs.
    assert (R : refers conditional false s p).
    { left. apply in_map_iff in Hs as ([y w] & E1 & E2). cbn in E1; subst. exists w; assumption. }
    apply conditional_up in R. unfold path in *. lia. }
  assert (Hd : NoDup (flat_map (refs conditional false) ps)).
  { clear E Hf Hr. induction ps as [|p ps IH]; [constructor|]. inversion Hn as [|? ? Hp Hps]; subst.
    specialize (IH Hps (fun x H => Hl x (or_intror H))). cbn [flat_map].
    pose proof (Hl p (or_introl eq_refl)) as H2. destruct p as [|[|[|p]]]; [| |exact IH|unfold path in *; lia].
    - constructor; [|exact IH]. intros Hin. apply in_flat_map in Hin as (s & Hs & Hin).
      pose proof (Hl s (or_intror Hs)) as H3. destruct s as [|[|[|s]]]; [contradiction| | |unfold path in *; lia];
        cbn in Hin; by_files; discriminate.
    - constructor; [|exact IH]. intros Hin. apply in_flat_map in Hin as (s & Hs & Hin).
      pose proof (Hl s (or_intror Hs)) as H3. destruct s as [|[|[|s]]]; [|contradiction| |unfold path in *; lia];
        cbn in Hin; by_files; discriminate. }
  assert (Ha : NoDup (0 :: flat_map (refs conditional false) ps)).
  { constructor; [|assumption]. intros H. specialize (Hf 0 H). unfold path in *. lia. }
  pose proof (eq_ind _ (@NoDup path) Ha _ E) as Hb. clear Ha. rename Hb into Ha. apply NoDup_remove_2 in Ha. apply Ha. rewrite !in_app_iff. cbn. auto.
Qed.
Lemma anonymous_chain : forall cs', chain anonymous_layer false 0 2 cs' -> cs' = [into None; always].
Proof.
  assert (N : forall p cs, chain anonymous_layer false 0 p cs ->
             match p with 0 => cs = [] | 1 => cs = [into None] | 2 => cs = [into None; always] | _ => False end).
  { intros p cs H. induction H as [|p q c cs H IH Hi|p q cs H IH Hi]; [reflexivity| |destruct Hi].
    destruct p as [|[|[|p]]]; cbn in Hi; by_files; subst; reflexivity. }
  intros cs' H. exact (N _ _ H).
Qed.
