(** * C07, C08, C49: [@supports] conditions and property names *)
From Coq Require Import List Bool String.
From Verif Require Import MediaModel VendorPrefixModel PropertyTable SupportsModel SupportsSpec
  SupportsProofs SupportsParseProofs SupportsMeaningProofs SupportsExamples.
Import ListNotations.
Local Open Scope string_scope.
Local Open Scope list_scope.

(** [and] and [or] combine conditions, whatever lists they extend or members they drop. *)
Theorem C07_and : forall B a b, holds B (s_and a b) = holds B a && holds B b.
Proof. exact s_and_holds. Qed.
Print Assumptions C07_and.
Theorem C07_or : forall B a b, holds B (s_or a b) = holds B a || holds B b.
Proof. exact s_or_holds. Qed.
Print Assumptions C07_or.
(** The same for the text that is written. *)
Theorem C07_and_text : forall B a b, printable a -> printable b ->
  text_holds B (print_scond (s_and a b)) = Some (holds B a && holds B b).
Proof. exact and_text_printed. Qed.
Print Assumptions C07_and_text.
Theorem C07_or_text : forall B a b, printable a -> printable b ->
  text_holds B (print_scond (s_or a b)) = Some (holds B a || holds B b).
Proof. exact or_text_printed. Qed.
Print Assumptions C07_or_text.
Example C07_example :
  let a := SDecl (PPlain "display") [CIdent "grid"] in
  let b := SNot (SDecl (PVp "mask" (vs_one WebKit)) [CIdent "none"]) in
  let c := s_and (s_or a b) b in
  printable a /\ printable b /\ c = SAnd [SOr [a; b]; b] /\ s_and c b = c
  /\ text_holds (knows ["display"]) (print_scond c) = Some true
  /\ text_holds (knows ["display"; "-webkit-mask"]) (print_scond c) = Some false.
Proof. vm_compute. repeat split. Qed.

(** A browser reads the text written for a parsed condition as that condition. *)
Theorem C08_printed_meaning : forall B l c, parse_supports property_table l = Some c ->
  text_holds B (print_scond c) = Some (holds B c).
Proof. exact table_text_printed. Qed.
Print Assumptions C08_printed_meaning.
(** More generally, of any condition with a text. *)
Theorem C08_print : forall B c, printable c -> text_holds B (print_scond c) = Some (holds B c).
Proof. exact print_meaning. Qed.
Print Assumptions C08_print.
(** Parsing succeeds on exactly the texts that are conditions. *)
Theorem C08_parse_defined : forall B l,
  (exists c, parse_supports property_table l = Some c) <-> (exists b, text_holds B l = Some b).
Proof. exact (text_defined property_table). Qed.
Print Assumptions C08_parse_defined.
Example C08_defined_example :
  parse_supports property_table [decl "color" "red"; CIdent "and"; decl "color" "red"; CIdent "or"; decl "color" "red"] = None
  /\ parse_supports property_table [CIdent "color"] = None
  /\ parse_supports property_table [CParen [decl "color" "red"; CIdent "xor"; decl "color" "red"]]
     = Some (SUnknown (CParen [decl "color" "red"; CIdent "xor"; decl "color" "red"])).
Proof. vm_compute. repeat split. Qed.
(** A parsed condition means what its source means.  Missing: vendor-prefixed declarations other
    than alone, under [not] or first in an [or]; refuted below. *)
Theorem C08_parse_meaning_partial : forall B l c,
  separated_text property_table l = true -> existsb (mentions prefixed_all) l = false ->
  parse_supports property_table l = Some c -> text_holds B l = Some (holds B c).
Proof. exact table_parse_meaning. Qed.
Print Assumptions C08_parse_meaning_partial.
Example C08_parse_meaning_example :
  separated_text property_table separate_text = true
  /\ existsb (mentions prefixed_all) separate_text = false
  /\ parse_supports property_table separate_text
     = Some (SNot (SOr [SDecl (PVp "mask" (VSet true false false false true)) [CIdent "none"]; SSelector [COther ".a"]]))
  /\ text_holds (knows ["mask"]) separate_text = Some false
  /\ text_holds (knows ["color"]) separate_text = Some true.
Proof. vm_compute. repeat split. Qed.
(** Printing and parsing again keeps the meaning.  Missing: conditions with vendor-prefixed
    declarations; refuted below. *)
Theorem C08_roundtrip_partial : forall l c, parse_supports property_table l = Some c -> unprefixed c = true ->
  exists c', parse_supports property_table (print_scond c) = Some c' /\ forall B, holds B c' = holds B c.
Proof. exact table_reparse. Qed.
Print Assumptions C08_roundtrip_partial.
Example C08_roundtrip_example :
  exists c, parse_supports property_table mixed = Some c /\ unprefixed c = true /\ print_scond c = mixed
  /\ holds (knows ["display"; "--x"]) c = true /\ holds (knows ["display"; "--X"]) c = false.
Proof. eexists. split; [vm_compute; reflexivity|]. vm_compute. repeat split. Qed.

(** [(display: grid) and ((-webkit-mask: none) or (mask: none))] loses [-webkit-mask]. *)
Theorem C08_prefix_stripped_refuted : exists B l c, parse_supports property_table l = Some c
  /\ text_holds B l = Some true /\ holds B c = false.
Proof. exists (knows ["display"; "-webkit-mask"]), stripped. eexists. split; [vm_compute; reflexivity|]. vm_compute. split; reflexivity. Qed.
Print Assumptions C08_prefix_stripped_refuted.
(** [(-webkit-mask: none) and (mask: none)] becomes a disjunction. *)
Theorem C08_and_merged_refuted : exists B l c, parse_supports property_table l = Some c
  /\ text_holds B l = Some false /\ holds B c = true.
Proof. exists (knows ["mask"]), merged. eexists. split; [vm_compute; reflexivity|]. vm_compute. split; reflexivity. Qed.
Print Assumptions C08_and_merged_refuted.
(** A nested conjunction is written without parentheses and then loses its prefix when read again. *)
Theorem C08_roundtrip_refuted : exists B l c c', parse_supports property_table l = Some c
  /\ parse_supports property_table (print_scond c) = Some c' /\ text_holds B l = Some true
  /\ holds B c = true /\ holds B c' = false.
Proof.
  exists (knows ["display"; "-webkit-mask"; "color"]), flattened. eexists _, _.
  split; [vm_compute; reflexivity|]. split; [vm_compute; reflexivity|]. vm_compute. repeat split.
Qed.
Print Assumptions C08_roundtrip_refuted.

(** A property name is kept by parsing and printing, up to letter case.  Missing: [all] with a
    vendor prefix; refuted below. *)
Theorem C49_name_kept_partial : forall n, prefixed_all n = false ->
  map canonical_name (pid_names (pid_from property_table n)) = [canonical_name n].
Proof. exact name_kept. Qed.
Print Assumptions C49_name_kept_partial.
Example C49_example :
  prefixed_all "-WebKit-Mask" = false
  /\ pid_names (pid_from property_table "-WebKit-Mask") = ["-webkit-mask"]
  /\ pid_names (pid_from property_table "-ms-mask") = ["-ms-mask"]
  /\ pid_names (pid_from property_table "--Mask") = ["--Mask"].
Proof. vm_compute. repeat split. Qed.
(** [-webkit-all] becomes [all]. *)
Theorem C49_prefixed_all_refuted : exists n,
  map canonical_name (pid_names (pid_from property_table n)) <> [canonical_name n]
  /\ pid_names (pid_from property_table n) = ["all"].
Proof. exists "-webkit-all". vm_compute. split; [discriminate | reflexivity]. Qed.
Print Assumptions C49_prefixed_all_refuted.
