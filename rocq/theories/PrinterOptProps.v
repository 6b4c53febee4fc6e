(** * C24: each option of CSS modules decides its own names *)
From Coq Require Import List Bool String Ascii PeanoNat NArith.
From Verif Require Import IdentModel IdentSpec PatternModel PatternSpec PrinterModel PrinterSpec PrinterExamples PrinterOptSpec PrinterOptProofs.
Import ListNotations.
Local Open Scope string_scope.

(** A name whose options are on is printed and exported as if all options were on. *)
Theorem C24_option_on : forall hash32 minify cfg sources remap k s p, local_on cfg k ->
  run_op hash32 minify (Some (cfg, sources)) remap (Site k s) p
  = run_op hash32 minify (Some (with_all cfg, sources)) remap (Site k s) p.
Proof. exact option_on. Qed.
Print Assumptions C24_option_on.
(** A name whose option is off is printed as it is and not exported.  Missing: counter styles, which
    are exported although their option is off. *)
Theorem C24_option_off_partial : forall hash32 minify cfg sources remap k s p,
  local_off cfg k -> k <> CounterStyle -> ordinary (Site k s) = true ->
  exists q, run_op hash32 minify (Some (cfg, sources)) remap (Site k s) p = Fine q /\ prints (sigil k) s p q
    /\ p_exports q = p_exports p /\ p_refs q = p_refs p.
Proof. exact option_off. Qed.
Print Assumptions C24_option_off_partial.
Example C24_option_example :
  local_on only_animation KeyframesIdent /\ local_off only_animation ContainerName /\ local_off only_animation GridName
  /\ ordinary (Site ContainerName "sidebar") = true /\ ~ all_on only_animation
  /\ (exists q, run_op ex_hash true (Some (only_animation, ex_sources)) no_remap (Site KeyframesIdent "spin") new_printer = Fine q /\ p_out q = "_1bcXaa_spin").
Proof.
  repeat (split; [vm_compute; reflexivity|]). split; [intros (_ & H & _); discriminate H|]. eexists. split; vm_compute; reflexivity.
Qed.
