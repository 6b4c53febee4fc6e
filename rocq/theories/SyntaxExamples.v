(** * Syntax strings: examples *)
From Coq Require Import List Bool Ascii String Lia.
From Verif Require Import AnimModel SyntaxModel SyntaxSpec.
Import ListNotations.
Local Open Scope string_scope.

(** Component values: lengths, words, commas *)
Inductive token := Px (n : nat) | Id (s : string) | Sep.
Definition one1 (k : kind) (t : token) : option nat := match k, t with Length, Px n => Some n | _, _ => None end.
Definition ident1 (t : token) : option string := match t with Id s => Some s | _ => None end.
Definition comma1 (t : token) : bool := match t with Sep => true | _ => false end.
Definition none1 (t : token) : bool := match t with Id s => is_kw "none" s | _ => false end.
Lemma show1 : forall k t v, one1 k t = Some v -> one1 k (Px v) = Some v.
Proof. intros [] [] v; cbn; congruence. Qed.

(** [ auto | <length># |<color>] *)
Definition text1 : string := "  auto | <length># |<color> ".
Definition syntax1 : list component := [Component (Literal "auto") One; Component Length Comma; Component Color One].
Lemma blanks1 : blanks " ".
Proof. split; [right; right; reflexivity|exact I]. Qed.
Lemma auto_literal : literal "auto".
Proof. split; [|cbn; intuition discriminate]. split; [cbn; unfold is_name, is_start; cbn; repeat split; lia|left; unfold is_start; cbn; lia]. Qed.
Lemma text1_reads : GSyntax text1 (Components syntax1).
Proof.
  apply gs_components.
  apply (gcs_more "  " "auto" " " _ " <length># |<color> "); [split; [right; right; reflexivity|exact blanks1]|apply gc_one, gk_literal, auto_literal|exact blanks1|].
  apply (gcs_more " " "<length>#" " " _ "<color> "); [exact blanks1|apply (gc_comma "<length>" Length); [apply (gk_type "length"); cbn; tauto|discriminate]|exact blanks1|].
  apply (gcs_one "" "<color>" " "); [exact I|apply gc_one; apply (gk_type "color"); cbn; tauto|exact blanks1].
Qed.
Lemma value1 : VSyntax one1 ident1 comma1 syntax1 [Px 1; Sep; Px 2] (Repeated [Value Length 1; Value Length 2] Comma) (Component Length Comma).
Proof.
  assert (S : forall n, VSingle one1 ident1 Length [Px n] (Value Length n)) by (intros n; constructor; [discriminate|discriminate|reflexivity]).
  apply vx_later.
  - intros q H. inversion H as [k l v V|k m l vs M V]; subst; [inversion V|congruence].
  - apply vx_here. constructor; [discriminate|]. apply (vm_comma _ _ _ _ _ [Px 1] _ Sep [Px 2]); [reflexivity|reflexivity|apply S|]. apply vm_one, S.
Qed.
Lemma value1_fine : forall d, In d syntax1 -> no_none none1 (c_kind d) [Px 1; Sep; Px 2] /\ ~ stops_early one1 ident1 comma1 d [Px 1; Sep; Px 2].
Proof.
  intros d H. split; [intros _; reflexivity|]. intros (M & a & b & p & E & N & V). cbn in H. destruct H as [<-|[<-|[<-|[]]]]; [|discriminate|].
  - inversion V as [k l v S|k m l vs N' S]; subst; [|congruence]. inversion S as [| |t s Q]; subst; [exfalso; match goal with A : forall s, Literal _ <> Literal s |- _ => exact (A _ eq_refl) end|]. injection E as <- _. discriminate.
  - inversion V as [k l v S|k m l vs N' S]; subst; [|congruence]. inversion S as [k t v' A B Q| |]; subst. injection E as <- _. discriminate.
Qed.
(** [<length> | <length>+] *)
Definition syntax2 : list component := [Component Length One; Component Length Space].
Lemma text2_reads : GSyntax "<length>|<length>+" (Components syntax2).
Proof.
  apply gs_components. apply (gcs_more "" "<length>" "" _ "<length>+"); [exact I|apply gc_one; apply (gk_type "length"); cbn; tauto|exact I|].
  apply (gcs_one "" "<length>+" ""); [exact I|apply (gc_space "<length>" Length); [apply (gk_type "length"); cbn; tauto|discriminate]|exact I].
Qed.
Lemma not_one_length q : ~ VComponent one1 ident1 comma1 (Component Length One) [Px 1; Px 2] q.
Proof. intros H. inversion H as [k l v S|k m l vs M S]; subst; [inversion S|congruence]. Qed.
Lemma value2 : VSyntax one1 ident1 comma1 syntax2 [Px 1; Px 2] (Repeated [Value Length 1; Value Length 2] Space) (Component Length Space).
Proof.
  assert (S : forall n, VSingle one1 ident1 Length [Px n] (Value Length n)) by (intros n; constructor; [discriminate|discriminate|reflexivity]).
  apply vx_later; [exact not_one_length|]. apply vx_here. constructor; [discriminate|]. apply (vm_space _ _ _ _ _ [Px 1] _ [Px 2]); [reflexivity|apply S|]. apply vm_one, S.
Qed.
(** A newline between components *)
Definition newline : string := String (ascii_of_nat 10) "".
Definition text3 : string := ("<length> |" ++ newline ++ "<color>")%string.
Lemma text3_reads : GSyntax text3 (Components [Component Length One; Component Color One]).
Proof.
  apply gs_components. apply (gcs_more "" "<length>" " " _ (newline ++ "<color>")); [exact I|apply gc_one; apply (gk_type "length"); cbn; tauto|exact blanks1|].
  apply (gcs_one newline "<color>" ""); [split; [right; left; reflexivity|exact I]|apply gc_one; apply (gk_type "color"); cbn; tauto|exact I].
Qed.
Lemma dash_reads : GSyntax "-x" (Components [Component (Literal "-x") One]).
Proof.
  apply gs_components. apply (gcs_one "" "-x" ""); [exact I| |exact I]. apply gc_one, gk_literal. split; [|cbn; intuition discriminate].
  split; [cbn; unfold is_name, is_start; cbn; repeat split; lia || tauto|]. right. split; [reflexivity|]. left. unfold is_start. cbn. lia.
Qed.
Lemma inherit_not_valid s : ~ GSyntax s (Components [Component (Literal "inherit") One]).
Proof.
  intros H. inversion H as [|s' l G]; subst. inversion G as [w x v c _ K _|w x v c r l _ K _ R]; subst; [|inversion R].
  inversion K as [x' k K'| |]; subst. inversion K' as [n k M|n [_ L]]; subst.
  - unfold types in M. cbn in M. intuition discriminate.
  - apply L. cbn. tauto.
Qed.
