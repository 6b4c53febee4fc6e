From Coq Require Import List Bool String Ascii PeanoNat NArith Lia.
From Verif Require Import IdentModel IdentSpec IdentProofs PatternModel PatternSpec PatternProofs.
From Verif Require Import PrinterModel PrinterSpec PrinterPosProofs PrinterLayoutProofs PrinterNameProofs PrinterOptSpec.
Import ListNotations.
Local Open Scope string_scope.
Local Open Scope list_scope.

Lemma site_on hash32 cfg sources k s p : local_on cfg k ->
  write_site hash32 (Some (cfg, sources)) k s p = write_site hash32 (Some (with_all cfg, sources)) k s p.
Proof.
  intros H. destruct cfg as [pat d a g cu co]. unfold local_on in H. cbn [options forallb cf_animation cf_grid cf_custom cf_container] in H.
  destruct k; cbn [options forallb cf_animation cf_grid cf_custom cf_container] in H;
    repeat (apply andb_true_iff in H; destruct H as [? H]); subst; reflexivity.
Qed.
Lemma site_off hash32 cfg sources k s p : local_off cfg k -> k <> CounterStyle ->
  write_site hash32 (Some (cfg, sources)) k s p = write_site hash32 None k s p.
Proof.
  intros H N. destruct cfg as [pat d a g cu co]. unfold local_off in H. 
  destruct k; cbn [options hd cf_animation cf_grid cf_custom cf_container] in H; try discriminate H; try contradiction; subst; reflexivity.
Qed.
Lemma none_exports hash32 k s p q : write_site hash32 None k s p = Fine q -> p_exports q = p_exports p /\ p_refs q = p_refs p.
Proof.
  intros E. destruct k; unfold write_site, write_custom, write_ident, mark_if, flag in E; cbn [andthen andb] in E; rewrite ?andb_false_r in E;
    try (injection E as E; rewrite <- E; split; reflexivity).
  all: destruct (keeps_quotes s); injection E as E; rewrite <- E; split; reflexivity.
Qed.
Theorem option_on hash32 minify cfg sources remap k s p : local_on cfg k ->
  run_op hash32 minify (Some (cfg, sources)) remap (Site k s) p = run_op hash32 minify (Some (with_all cfg, sources)) remap (Site k s) p.
Proof. apply site_on. Qed.
Theorem option_off hash32 minify cfg sources remap k s p : local_off cfg k -> k <> CounterStyle -> ordinary (Site k s) = true ->
  exists q, run_op hash32 minify (Some (cfg, sources)) remap (Site k s) p = Fine q /\ prints (sigil k) s p q
    /\ p_exports q = p_exports p /\ p_refs q = p_refs p.
Proof.
  intros H N O. destruct (names_read_back hash32 minify remap k s p O) as (q & E & P).
  exists q. split; [exact (eq_trans (site_off hash32 cfg sources k s p H N) E)|]. split; [exact P|]. exact (none_exports hash32 k s p q E).
Qed.
