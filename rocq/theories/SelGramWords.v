(** * Words in any letter case and the tables of names *)
From Coq Require Import List Bool ZArith Ascii String Lia.
Import ListNotations.
From Verif Require AnimModel AnbSpec AnbProofs.
From Verif Require Import SelTextModel SelTextSpec SelTextProofs SelTextBack SelGramSpec.
Local Open Scope string_scope.
Local Open Scope list_scope.

(** ** Words *)
Lemma word_lower k n : word k n -> lower k = k -> lower n = k.
Proof. exact (AnbProofs.any_case_lower k n). Qed.
Lemma lower_char_word c a b : AnbSpec.any_case a b -> AnbSpec.any_case (String (AnimModel.lower_char c) a) (String c b).
Proof.
  intros H. unfold AnimModel.lower_char. destruct (_ && _) eqn:E; [|constructor; exact H].
  apply andb_prop in E. destruct E as [E1 E2]. apply Nat.leb_le in E1, E2.
  assert (W : c = ascii_of_nat (nat_of_ascii c + 32 - 32)) by (rewrite Nat.add_sub, ascii_nat_embedding; reflexivity).
  rewrite W at 2. apply AnbSpec.case_upper; [lia|exact H].
Qed.
Lemma lower_word n : word (lower n) n.
Proof. induction n as [|c n IH]; [constructor|]. apply lower_char_word. exact IH. Qed.
Lemma word_kw k n : word k n -> lower k = k -> is_kw k n = true.
Proof. intros W L. unfold is_kw, AnimModel.is_kw. change AnimModel.lower with lower. rewrite (word_lower k n W L). apply String.eqb_refl. Qed.
Lemma word_other k k' n : word k n -> lower k = k -> is_kw k' n = String.eqb k k'.
Proof. intros W L. unfold is_kw, AnimModel.is_kw. change AnimModel.lower with lower. rewrite (word_lower k n W L). reflexivity. Qed.
Lemma kw_word k n : is_kw k n = true -> word k n.
Proof. intros H. rewrite (is_kw_lower k n H). apply lower_word. Qed.

(** ** Tables *)
Definition looked {A B} (t : list (string * A)) (f : B -> A) (names : list (string * B)) : Prop :=
  Forall (fun x => lower (fst x) = fst x /\ forall n, lower n = fst x -> keyword t n = Some (f (snd x))) names.
Lemma keyword_lower {A} (t : list (string * A)) n : keyword t n = match find (fun x => String.eqb (lower n) (fst x)) t with Some x => Some (snd x) | None => None end.
Proof.
  induction t as [|[k v] t IH]; [reflexivity|]. cbn [keyword AnimModel.keyword find fst]. unfold keyword in *. cbn [AnimModel.keyword]. unfold AnimModel.is_kw. change AnimModel.lower with lower.
  destruct (String.eqb (lower n) k); [reflexivity|exact IH].
Qed.
Ltac look := unfold looked; repeat (constructor; [split; [reflexivity|let n := fresh in let E := fresh in intros n E; rewrite keyword_lower, E; reflexivity]|]); constructor.
Lemma look_up {A B} (t : list (string * A)) (f : B -> A) names k v n : looked t f names -> In (k, v) names -> word k n -> keyword t n = Some (f v).
Proof.
  intros L I W. unfold looked in L. rewrite Forall_forall in L. destruct (L _ I) as [E H]. apply H. apply word_lower; assumption.
Qed.
(** No name of the table is missing from the lists *)
Definition covered {A} (t : list (string * A)) (names : list string) : Prop := Forall (fun x => In (fst x) names) t.
Lemma look_none {A} (t : list (string * A)) names n : covered t names -> (forall k, In k names -> ~ word k n) -> keyword t n = None.
Proof.
  intros C N. rewrite keyword_lower. destruct (find _ t) as [x|] eqn:F; [|reflexivity]. apply find_some in F. destruct F as [I E]. unfold covered in C. rewrite Forall_forall in C.
  destruct (N (fst x) (C x I)). apply kw_word. exact E.
Qed.
Definition inb (k : string) (l : list string) : bool := existsb (String.eqb k) l.
Lemma inb_in k l : inb k l = true -> In k l.
Proof. intros H. apply existsb_exists in H. destruct H as [x [I E]]. apply String.eqb_eq in E. subst. exact I. Qed.
Lemma covered_of {A} (t : list (string * A)) names : forallb (fun x => inb (fst x) names) t = true -> covered t names.
Proof. intros H. apply Forall_forall. intros x I. apply inb_in. rewrite forallb_forall in H. exact (H x I). Qed.
Lemma no_name_in {A} (l : list (string * A)) n k : no_name l n -> In k (map fst l) -> ~ word k n.
Proof. intros N I. apply in_map_iff in I. destruct I as [[k' v] [<- I]]. exact (N k' v I). Qed.

Lemma tree_looked : looked tree_table (fun c => c) tree_names. Proof. look. Qed.
Lemma class_looked : looked class_table (fun c => c) class_names. Proof. look. Qed.
Lemma action_looked : looked class_table (fun c => c) action_names. Proof. look. Qed.
Lemma scrollbar_looked : looked class_table (fun c => c) scrollbar_names. Proof. look. Qed.
Lemma old_looked : looked element_table (fun c => c) old_element_names. Proof. look. Qed.
Lemma element_looked : looked element_table (fun c => c) element_names. Proof. look. Qed.
Lemma bar_looked : looked element_table (fun c => c) scrollbar_elements. Proof. look. Qed.
Lemma slot_looked : looked element_table (fun c => c) slot_names. Proof. look. Qed.
Lemma nth_looked : looked nth_table (fun c => c) nth_names. Proof. look. Qed.
Lemma vt_looked : looked vt_table (fun c => c) vt_names. Proof. look. Qed.

(** A word is none of the words of a list *)
Definition none_of (ks : list string) (n : string) : Prop := forall k, In k ks -> is_kw k n = false.
Lemma listed_none {B} (names : list (string * B)) (ks : list string) k v n : forallb (fun x => String.eqb (lower (fst x)) (fst x) && negb (inb (fst x) ks)) names = true -> In (k, v) names -> word k n -> none_of ks n.
Proof.
  intros H I W k' I'. rewrite forallb_forall in H. specialize (H _ I). cbn [fst] in H. apply andb_prop in H. destruct H as [L H]. apply String.eqb_eq in L. rewrite (word_other k k' n W L).
  destruct (String.eqb k k') eqn:E; [|reflexivity]. apply String.eqb_eq in E. subst k'. apply negb_true_iff in H.
  exfalso. assert (X : inb k ks = true) by (apply existsb_exists; exists k; split; [exact I'|apply String.eqb_refl]). rewrite X in H. discriminate H.
Qed.
Lemma unnamed_none {B} (names : list (string * B)) (ks : list string) n : no_name names n -> forallb (fun k => inb k (map fst names)) ks = true -> none_of ks n.
Proof.
  intros N H k I. rewrite forallb_forall in H. destruct (is_kw k n) eqn:E; [|reflexivity]. destruct (no_name_in names n k N (inb_in _ _ (H k I)) (kw_word k n E)).
Qed.
Lemma keyword_none {A} (t : list (string * A)) n : none_of (map fst t) n -> keyword t n = None.
Proof.
  intros N. rewrite keyword_lower. destruct (find _ t) as [x|] eqn:F; [|reflexivity]. apply find_some in F. destruct F as [I E]. specialize (N (fst x) (in_map fst _ _ I)).
  unfold is_kw, AnimModel.is_kw in N. change AnimModel.lower with lower in N. rewrite E in N. discriminate N.
Qed.
Definition old_words : list string := ["before"; "after"; "first-line"; "first-letter"].
Lemma css2_none n : none_of old_words n -> css2_element n = false.
Proof. intros N. unfold css2_element. rewrite !N; [reflexivity|cbn; auto 6..]. Qed.
Lemma css2_old n k e : In (k, e) old_element_names -> word k n -> css2_element n = true.
Proof.
  intros I W. unfold css2_element. cbn in I. repeat destruct I as [I|I]; try (injection I as <- <-; rewrite (word_kw _ _ W eq_refl); rewrite ?orb_true_r; reflexivity). destruct I.
Qed.
Lemma reserved_none n : no_name css_wide n -> reserved n = false.
Proof.
  intros N. unfold reserved, AnimModel.reserved. apply not_true_iff_false. intros H. apply existsb_exists in H. destruct H as [k [I E]].
  refine (no_name_in css_wide n k N _ (kw_word k n E)). cbn in *. exact I.
Qed.
