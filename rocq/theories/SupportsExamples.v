(** * Concrete texts and browsers for the [@supports] theorems *)
From Coq Require Import List Bool String.
From Verif Require Import MediaModel VendorPrefixModel PropertyTable SupportsModel SupportsSpec
  SupportsProofs SupportsParseProofs SupportsMeaningProofs.
Import ListNotations.
Local Open Scope string_scope.
Local Open Scope list_scope.

Definition decl (n v : string) : cv := CParen [CIdent n; CColon; CIdent v].
(** Supports exactly the declarations of the given properties *)
Definition knows (names : list string) : browser :=
  Browser (fun n _ => existsb (String.eqb n) names) (fun _ => false) (fun _ => false).

(** [(display: grid) and ((-webkit-mask: none) or (mask: none))] *)
Definition stripped : list cv :=
  [decl "display" "grid"; CIdent "and"; CParen [decl "-webkit-mask" "none"; CIdent "or"; decl "mask" "none"]].
(** [(-webkit-mask: none) and (mask: none)] *)
Definition merged : list cv := [decl "-webkit-mask" "none"; CIdent "and"; decl "mask" "none"].
(** [(display: grid) and ((-webkit-mask: none) and (color: red))] *)
Definition flattened : list cv :=
  [decl "display" "grid"; CIdent "and"; CParen [decl "-webkit-mask" "none"; CIdent "and"; decl "color" "red"]].
(** [(-webkit-all: initial)] *)
Definition prefixed_all_text : list cv := [decl "-webkit-all" "initial"].
(** [not ((-webkit-mask: none) or (MASK: none)) ] *)
Definition separate_text : list cv :=
  [CIdent "not"; CParen [decl "-webkit-mask" "none"; CIdent "or"; decl "MASK" "none"; CIdent "OR"; CFun "selector" [COther ".a"]]].
(** [(display: grid) and (not (color: red)) and ((--x: y) or foo(bar))] *)
Definition mixed : list cv :=
  [decl "display" "grid"; CIdent "and"; CParen [CIdent "not"; decl "color" "red"]; CIdent "and";
   CParen [decl "--x" "y"; CIdent "or"; CFun "foo" [CIdent "bar"]]].

Lemma property_table_ok : table_ok property_table = true.
Proof. vm_compute. reflexivity. Qed.
Lemma property_table_unprefixed :
  forallb (fun e => negb (e_vp e) || match fst (split_prefix (e_name e)) with Unprefixed => true | _ => false end)
          property_table = true.
Proof. vm_compute. reflexivity. Qed.

(** The bound theorems *)
Lemma table_parse_meaning : forall B l c,
  separated_text property_table l = true -> existsb (mentions prefixed_all) l = false ->
  parse_supports property_table l = Some c -> text_holds B l = Some (holds B c).
Proof. intros B l c. exact (parse_meaning property_table property_table_ok B l c). Qed.
Lemma table_reparse : forall l c, parse_supports property_table l = Some c -> unprefixed c = true ->
  exists c', parse_supports property_table (print_scond c) = Some c' /\ forall B, holds B c' = holds B c.
Proof. exact (reparse property_table property_table_ok property_table_unprefixed). Qed.
Lemma table_text_printed : forall B l c, parse_supports property_table l = Some c ->
  text_holds B (print_scond c) = Some (holds B c).
Proof. intros B l c H. apply print_meaning. exact (parse_supports_printable property_table l c H). Qed.
Lemma and_text_printed : forall B a b, printable a -> printable b ->
  text_holds B (print_scond (s_and a b)) = Some (holds B a && holds B b).
Proof. intros B a b Ha Hb. rewrite print_meaning, s_and_holds; [reflexivity | apply s_and_printable; assumption]. Qed.
Lemma or_text_printed : forall B a b, printable a -> printable b ->
  text_holds B (print_scond (s_or a b)) = Some (holds B a || holds B b).
Proof. intros B a b Ha Hb. rewrite print_meaning, s_or_holds; [reflexivity | apply s_or_printable; assumption]. Qed.
Lemma name_kept : forall n, prefixed_all n = false ->
  map canonical_name (pid_names (pid_from property_table n)) = [canonical_name n].
Proof.
  intros n Hp. destruct (pid_from_cases property_table property_table_ok n)
    as [[e [H [H1 [H2 [H3 [H4 H5]]]]]]|[[m [H [H1 H2]]]|[[H H1]|H]]]; rewrite H.
  - assert (K : canonical_name (pfx_text (fst (split_prefix n)) ++ e_name e)%string = canonical_name n)
      by (rewrite <- H4; apply canonical_idem).
    unfold pid_names. cbn [pid_prefix pid_name].
    rewrite <- K. destruct (fst (split_prefix n)); reflexivity.
  - unfold pid_names. cbn -[canonical_name]. rewrite <- H1, canonical_idem. reflexivity.
  - unfold pid_names. cbn -[canonical_name]. rewrite (H1 Hp). reflexivity.
  - reflexivity.
Qed.
