(** * Proofs about the conditions of loaded files *)
From Coq Require Import List Bool Arith String Lia.
From Verif Require Import BundleModel BundleSpec BundleLoadProofs.
Import ListNotations.

Section Cond.
Context {M S : Type}.
Notation srule := (srule M S).
Notation conds := (conds M S).
Notation sheet := (sheet M S).
Notation call := (call M S).
Notation lstate := (lstate M S).
Variable m_empty : M.
Variable m_is_empty : M -> bool.
Variable m_and : M -> M -> option M.
Variable m_or : M -> M -> M.
Variable s_and s_or : S -> S -> S.
Variable read : path -> option (list srule).
Variable css_modules : bool.
Variable entry : path.

Notation load_step := (load_step M S m_empty m_is_empty m_and m_or s_and s_or read css_modules).
Notation load_run := (load_run M S m_empty m_is_empty m_and m_or s_and s_or read css_modules).
Notation load_init := (load_init M S m_empty entry).
Notation merge_conds := (merge_conds M S m_empty m_is_empty m_or s_or).
Notation nested_conds := (nested_conds M S m_and s_and).
Notation import_calls := (import_calls M S m_and s_and).
Notation target_calls := (target_calls M S).
Notation composes_of := (composes_of M S).
Notation prefix_layer := (prefix_layer M S).
Notation find_sheet := (find_sheet M S).
Notation update_sheet := (update_sheet M S).
Notation imports := (imports read).
Notation composes := (composes read css_modules).
Notation refers := (refers read css_modules).
Notation reach := (reach read css_modules).


Notation calls_of := (calls_of m_and s_and css_modules).
Notation loads := (loads M S m_empty m_is_empty m_and m_or s_and s_or read css_modules entry).
Notation step_split := (step_split m_empty m_is_empty m_and m_or s_and s_or read css_modules).
Notation calls_of_in := (calls_of_in m_and s_and read css_modules).
Notation calls_of_import := (calls_of_import m_and s_and read css_modules).
Notation calls_of_composes := (calls_of_composes m_and s_and read css_modules).
Notation inv := (inv read css_modules entry).
Notation inv_init := (inv_init m_empty m_is_empty m_and m_or read css_modules entry).
Notation inv_step := (inv_step m_empty m_is_empty m_and m_or s_and s_or read css_modules entry).
Notation run_ind := (run_ind m_empty m_is_empty m_and m_or s_and s_or read css_modules entry).
Notation chain := (chain read css_modules entry).
Notation no_conds := (no_conds M S m_empty).

(** ** Media and supports conditions in one environment *)
Section Env.
Variables (me : M -> bool) (se : S -> bool) (dom : M -> Prop).
Hypothesis X : exact_ops m_empty m_is_empty m_and m_or s_and s_or dom me se.
Hypothesis Hdom : forall p q c, reach entry p -> In (q, c) (imports p) -> dom (c_media c).
Notation ap := (applies me se).

Lemma merge_exact : forall e r c, merge_conds e r = Some c -> ap c = ap e || ap r.
Proof.
  intros [em es el] [rm rs rl] c H. unfold merge_conds in H. cbn [c_media c_supports c_layer] in *.
  destruct X as [[Xe Xe'] Xi Xa Xo Xsa Xso].
  assert (Hc : exists l, c = Conds (if m_is_empty rm then m_empty else if negb (m_is_empty em) then m_or em rm else em)
                       (match rs with Some s => match es with Some e => Some (s_or e s) | None => None end | None => None end) l
             /\ (negb (m_is_empty rm) && match es with Some _ => true | None => false end
                 || negb (m_is_empty em) && match rs with Some _ => true | None => false end) = false).
  { destruct (negb (m_is_empty rm) && match es with Some _ => true | None => false end
                 || negb (m_is_empty em) && match rs with Some _ => true | None => false end); [discriminate|].
    destruct rl as [rl|]; [destruct el as [el|]; [destruct (_ || _) in H; [discriminate|]|]|];
      inversion H; eexists; split; reflexivity. }
  destruct Hc as (l & -> & Hg). unfold applies; cbn [c_media c_supports].
  pose proof (Xi m_empty Xe') as Hem.
  destruct (m_is_empty rm) eqn:Er; destruct (m_is_empty em) eqn:Ee; cbn [negb andb orb] in *;
    repeat match goal with H : m_is_empty _ = true |- _ => apply Xi in H end;
    destruct es as [es|]; destruct rs as [rs|]; cbn in Hg; try discriminate;
    rewrite ?Hem, ?Ee, ?Er, ?Xso; cbn; rewrite ?orb_true_r, ?andb_true_r; auto.
Qed.
Lemma nested_exact : forall r ic c, dom (c_media r) -> dom (c_media ic) -> nested_conds r ic = Some c ->
    dom (c_media c) /\ ap c = ap r && ap ic.
Proof.
  intros [rm rs rl] [im is il] c Dr Di H. unfold nested_conds in H. cbn [c_media c_supports c_layer] in *.
  destruct (m_and rm im) as [m|] eqn:Em; [|discriminate].
  destruct (combine_layer rl il) as [l|]; [|discriminate]. inversion H; subst; clear H.
  destruct X as [_ _ Xa _ Xsa _]. destruct (Xa _ _ _ Dr Di Em) as [D E]. split; [assumption|].
  unfold applies; cbn [c_media c_supports]. rewrite E.
  destruct rs as [rs|], is as [is|]; cbn; rewrite ?Xsa; destruct (me rm), (me im); cbn;
    rewrite ?andb_true_r, ?andb_false_r; auto.
Qed.

Lemma chain_reach : forall p cs, chain p cs -> reach entry p.
Proof.
  induction 1 as [|p q c cs H IH Hi|p q cs H IH Hi]; [constructor|..]; (econstructor; [exact IH|]).
  - left; exists c; assumption.
  - right; assumption.
Qed.
Lemma chain_applies_app : forall cs c, chain_applies me se (cs ++ [c]) = chain_applies me se cs && ap c.
Proof. intros. unfold chain_applies. rewrite forallb_app. cbn. rewrite andb_true_r. reflexivity. Qed.

Definition rule_ok (p : path) (c : conds) : Prop :=
  dom (c_media c) /\ exists cs, chain p cs /\ ap c = chain_applies me se cs.
Definition covered (st : lstate) (q : path) : Prop :=
  (exists c, In (Call q c) (l_todo st) /\ ap c = true) \/ (exists s, In s (l_sheets st) /\ sh_path s = q /\ ap (sh_conds s) = true).
Definition sheet_ok (st : lstate) (s : sheet) : Prop :=
  (ap (sh_conds s) = true -> exists cs, chain (sh_path s) cs /\ chain_applies me se cs = true) /\
  exists r0, rule_ok (sh_path s) r0
    /\ (forall q ic, In (q, ic) (imports (sh_path s)) -> ap r0 = true -> ap ic = true -> covered st q)
    /\ (forall q, In q (composes (sh_path s)) -> ap r0 = true -> covered st q).
Record cinv (st : lstate) : Prop := {
  ci_todo : forall c, In c (l_todo st) -> rule_ok (call_file c) (call_rule c);
  ci_sheets : forall s, In s (l_sheets st) -> sheet_ok st s;
  ci_entry : covered st entry }.

Lemma cinv_init : cinv load_init.
Proof.
  destruct X as [[Xe Xe'] Xi _ _ _ _].
  assert (ap no_conds = true) as Ha by (unfold applies; cbn; rewrite Xi; auto).
  constructor; cbn.
  - intros c [<-|[]]. split; [assumption|]. exists []. split; [constructor|]. exact Ha.
  - tauto.
  - left. exists no_conds. split; [left; reflexivity|exact Ha].
Qed.
Lemma sheet_ok_mono : forall st st' s, (forall q, covered st q -> covered st' q) -> sheet_ok st s -> sheet_ok st' s.
Proof.
  intros st st' s H (Hs & r0 & Hr & H1 & H2). split; [assumption|].
  exists r0. split; [assumption|]. split; intros; apply H; eauto.
Qed.
Lemma cinv_step : forall st k st', inv st /\ cinv st -> load_step st k = Some st' -> inv st' /\ cinv st'.
Proof.
  intros st k st' [I C] H. split; [eapply inv_step; eauto|]. apply step_split in H.
  destruct C as [C1 C2 C3].
  destruct H as [file rule t1 t2 e c Ht Hf Hm ->|file rule t1 t2 rs a Ht Hf Hr Ha ->].
  - apply find_sheet_in in Hf as [He Hp].
    assert (Hrule : rule_ok file rule).
    { apply (C1 (Call file rule)). rewrite Ht. apply in_or_app; right; left; reflexivity. }
    destruct (C2 e He) as (Hse & Hre).
    destruct Hrule as [Dr (cs & Hcs & Hacs)].
    pose proof (merge_exact _ _ _ Hm) as Hc.
    assert (Hcov : forall q, covered st q -> covered (LState (update_sheet file c (l_sheets st)) (t1 ++ t2)) q).
    { intros q [(x & Hx & Hax)|(s & Hs & Hsp & Has)].
      - rewrite Ht in Hx. apply in_app_or in Hx as [Hx|[Hx|Hx]].
        + left. exists x. split; [cbn; apply in_or_app; auto|assumption].
        + inversion Hx; subst. right. eexists. split; [apply (update_hit _ c _ e); [apply I|exact He|reflexivity]|].
          split; [reflexivity|]. cbn. rewrite Hc, Hax, orb_true_r. reflexivity.
        + left. exists x. split; [cbn; apply in_or_app; auto|assumption].
      - right. destruct (Nat.eq_dec q file) as [Eq|Eq].
        + subst. eexists. split; [apply (update_hit _ c _ s); [apply I|exact Hs|congruence]|].
          split; [cbn; congruence|]. cbn.
          assert (Es : s = e).
          { pose proof (v_nodup _ _ _ _ I) as Hn.
            clear - Hn Hs He Eq. revert Hn Hs He. induction (l_sheets st) as [|x l IH]; intros Hn Hs He; [destruct Hs|].
            cbn in Hn. inversion Hn as [|? ? Hx Hnr]; subst.
            destruct Hs as [->|Hs], He as [->|He]; auto; exfalso; apply Hx.
            - rewrite Eq. apply in_map; assumption.
            - rewrite <- Eq. apply in_map; assumption. }
          subst s. rewrite Hc, Has. reflexivity.
        + exists s. split; [apply update_keeps; [assumption|congruence]|]. auto. }
    constructor; cbn [l_sheets l_todo].
    + intros x Hx. apply C1. rewrite Ht. apply in_app_or in Hx as [Hx|Hx]; apply in_or_app; cbn; auto.
    + intros s Hs. apply update_in in Hs; [|apply I].
      destruct Hs as [[_ Hs]|(Hsp & Hsc & s' & Hs' & Hp' & _)].
      * eapply sheet_ok_mono; [exact Hcov|auto].
      * split.
        -- rewrite Hsc, Hc, Hsp. intros Hor. apply orb_prop in Hor as [Hor|Hor].
           ++ rewrite <- Hp. auto.
           ++ exists cs. split; [assumption|congruence].
        -- destruct (C2 s' Hs') as (_ & r0 & R1 & R2 & R3). exists r0. rewrite Hp' in *. rewrite Hsp.
           split; [assumption|]. split; intros; apply Hcov; eauto.
    + auto.
  - apply find_sheet_none in Hf.
    assert (Hreach : reach entry file).
    { apply (v_reach _ _ _ _ I). right. rewrite Ht, todo_files. apply in_or_app; right; left; reflexivity. }
    assert (Hrule : rule_ok file rule).
    { apply (C1 (Call file rule)). rewrite Ht. apply in_or_app; right; left; reflexivity. }
    set (st' := LState (l_sheets st ++ [Sheet file rule (map (prefix_layer rule) rs)]) ((t1 ++ t2) ++ a)).
    assert (Hcov : forall q, covered st q -> covered st' q).
    { intros q [(x & Hx & Hax)|(s & Hs & Hsp & Has)].
      - rewrite Ht in Hx. apply in_app_or in Hx as [Hx|[Hx|Hx]].
        + left. exists x. split; [cbn; rewrite !in_app_iff; auto|assumption].
        + inversion Hx; subst. right. eexists. split; [cbn; apply in_or_app; right; left; reflexivity|].
          cbn. auto.
        + left. exists x. split; [cbn; rewrite !in_app_iff; auto|assumption].
      - right. exists s. split; [cbn; apply in_or_app; auto|auto]. }
    assert (Hrule' := Hrule). destruct Hrule as [Dr (cs & Hcs & Hacs)].
    constructor; cbn [l_sheets l_todo st'].
    + intros x Hx. apply in_app_or in Hx as [Hx|Hx].
      * apply C1. rewrite Ht. apply in_app_or in Hx as [Hx|Hx]; apply in_or_app; cbn; auto.
      * destruct (calls_of_in _ _ _ _ _ Hr Ha Hx) as [(ic & Hi & Hn)|[Hi Hn]].
        -- destruct (nested_exact _ _ _ Dr (Hdom _ _ _ Hreach Hi) Hn) as [D E]. split; [assumption|].
           exists (cs ++ [ic]). split; [eapply Ch_import; eauto|]. rewrite chain_applies_app, E. congruence.
        -- rewrite Hn. split; [assumption|]. exists cs. split; [eapply Ch_composes; eauto|assumption].
    + intros s Hs. apply in_app_or in Hs as [Hs|[<-|[]]].
      * eapply sheet_ok_mono; [exact Hcov|auto].
      * split; cbn [sh_path sh_conds]; [intros Hap; exists cs; split; [assumption|congruence]|].
        exists rule. split; [assumption|]. split.
        -- intros q ic Hq Hr0 Hic.
           destruct (calls_of_import _ _ _ _ _ _ Hr Ha Hq) as (c' & Hn & Hin).
           destruct (nested_exact _ _ _ Dr (Hdom _ _ _ Hreach Hq) Hn) as [_ E].
           left. exists c'. split; [cbn; apply in_or_app; auto|]. rewrite E, Hr0, Hic. reflexivity.
        -- intros q Hq Hr0. pose proof (calls_of_composes _ _ _ _ _ Hr Ha Hq) as Hin.
           left. exists rule. split; [cbn; apply in_or_app; auto|assumption].
    + auto.
Qed.
Lemma loads_cinv : forall sched l, loads sched l -> cinv (LState l []).
Proof.
  intros sched l H.
  exact (proj2 (run_ind (fun st => inv st /\ cinv st) (conj inv_init cinv_init) cinv_step _ _ H)).
Qed.

Lemma conds_sound : forall sched l s, loads sched l -> In s l ->
    ap (sh_conds s) = true -> exists cs, chain (sh_path s) cs /\ chain_applies me se cs = true.
Proof.
  intros sched l s H Hs Ha. apply loads_cinv in H. destruct (ci_sheets _ H s Hs) as (H1 & _). auto.
Qed.
Lemma conds_complete : forall sched l s,
    (forall p q cs cs', refers p q -> chain p cs -> chain p cs' -> chain_applies me se cs = chain_applies me se cs') ->
    loads sched l -> In s l ->
    forall cs, chain (sh_path s) cs -> chain_applies me se cs = true -> ap (sh_conds s) = true.
Proof.
  intros sched l s HU H Hs cs Hc Hcs. pose proof (loads_inv _ _ _ _ _ _ _ _ _ _ _ H) as I.
  pose proof (loads_cinv _ _ H) as C.
  assert (G : forall q cs, chain q cs -> chain_applies me se cs = true -> covered (LState l []) q).
  { clear s Hs cs Hc Hcs. intros q cs Hc. induction Hc as [|p q c cs Hc IH Hi|p q cs Hc IH Hi]; intros Ha.
    - apply C.
    - rewrite chain_applies_app in Ha. apply andb_prop in Ha as [Ha1 Ha2].
      destruct (IH Ha1) as [(x & [] & _)|(s & Hs & Hsp & _)].
      destruct (ci_sheets _ C s Hs) as (_ & r0 & (_ & cs0 & Hc0 & E0) & R2 & _). rewrite Hsp in *.
      apply (R2 q c Hi); [|assumption]. rewrite E0.
      rewrite (HU p q cs0 cs); [assumption|left; exists c; assumption|assumption|assumption].
    - destruct (IH Ha) as [(x & [] & _)|(s & Hs & Hsp & _)].
      destruct (ci_sheets _ C s Hs) as (_ & r0 & (_ & cs0 & Hc0 & E0) & _ & R3). rewrite Hsp in *.
      apply (R3 q Hi). rewrite E0. rewrite (HU p q cs0 cs); [assumption|right; assumption|assumption|assumption]. }
  destruct (G _ _ Hc Hcs) as [(x & [] & _)|(s' & Hs' & Hsp & Hap)].
  assert (Es : s' = s).
  { pose proof (v_nodup _ _ _ _ I) as Hn. cbn in Hn.
    clear - Hn Hs Hs' Hsp. revert Hn Hs Hs'. induction l as [|x l IH]; intros Hn Hs He; [destruct Hs|].
    cbn in Hn. inversion Hn as [|? ? Hx Hnr]; subst.
    destruct Hs as [->|Hs], He as [->|He]; auto; exfalso; apply Hx.
    - rewrite <- Hsp. apply in_map; assumption.
    - rewrite Hsp. apply in_map; assumption. }
  congruence.
Qed.
End Env.

(** ** Layers *)
Section Layers.
Hypothesis named : forall p q c, reach entry p -> In (q, c) (imports p) -> c_layer c <> Some None.
Definition layer_ok (p : path) (l : import_layer) : Prop := exists cs, chain p cs /\ l = layer_of_chain cs.
Lemma chain_layer_app : forall (cs : list conds) c, c_layer c <> Some None ->
    layer_of_chain (cs ++ [c]) =
    match c_layer c with
    | Some (Some b) => Some (Some (chain_layer cs ++ b))
    | _ => layer_of_chain cs
    end.
Proof.
  intros cs c Hc. unfold layer_of_chain.
  assert (E1 : layered (cs ++ [c]) = layered cs || match c_layer c with Some _ => true | None => false end).
  { unfold layered. rewrite existsb_app. cbn. rewrite orb_false_r. reflexivity. }
  assert (E2 : chain_layer (cs ++ [c]) = chain_layer cs ++ match c_layer c with Some (Some n) => n | _ => [] end).
  { clear. induction cs as [|x cs IH]; cbn; [rewrite app_nil_r; reflexivity|]. rewrite IH, app_assoc. reflexivity. }
  rewrite E1, E2. destruct (c_layer c) as [[b|]|]; [|congruence|].
  - rewrite orb_true_r. reflexivity.
  - rewrite orb_false_r, app_nil_r. reflexivity.
Qed.
Lemma chain_layer_none : forall cs : list conds, layered cs = false -> chain_layer cs = [].
Proof.
  induction cs as [|c cs IH]; cbn; [reflexivity|]. destruct (c_layer c); [discriminate|]. cbn. auto.
Qed.
Record yinv (st : lstate) : Prop := {
  yi_todo : forall c, In c (l_todo st) -> layer_ok (call_file c) (c_layer (call_rule c));
  yi_sheets : forall s, In s (l_sheets st) -> layer_ok (sh_path s) (c_layer (sh_conds s))
      /\ exists rs r0, read (sh_path s) = Some rs /\ layer_ok (sh_path s) (c_layer r0) /\ sh_rules s = map (prefix_layer r0) rs }.
Lemma merge_layer : forall e r c, merge_conds e r = Some c -> c_layer c = c_layer e \/ c_layer c = c_layer r.
Proof.
  intros [em es el] [rm rs rl] c H. unfold merge_conds in H. cbn [c_media c_supports c_layer] in *.
  destruct (_ || _) in H; [discriminate|].
  destruct rl as [rl|]; [destruct el as [el|]; [destruct (_ || _) in H; [discriminate|]|]|]; inversion H; cbn; auto.
Qed.
Lemma yinv_step : forall st k st', inv st /\ yinv st -> load_step st k = Some st' -> inv st' /\ yinv st'.
Proof.
  intros st k st' [I C] H. split; [eapply inv_step; eauto|]. apply step_split in H.
  destruct C as [C1 C2].
  destruct H as [file rule t1 t2 e c Ht Hf Hm ->|file rule t1 t2 rs a Ht Hf Hr Ha ->].
  - apply find_sheet_in in Hf as [He Hp].
    assert (Hrule : layer_ok file (c_layer rule)).
    { apply (C1 (Call file rule)). rewrite Ht. apply in_or_app; right; left; reflexivity. }
    constructor; cbn [l_sheets l_todo].
    + intros x Hx. apply C1. rewrite Ht. apply in_app_or in Hx as [Hx|Hx]; apply in_or_app; cbn; auto.
    + intros s Hs. apply update_in in Hs; [|apply I].
      destruct Hs as [[_ Hs]|(Hsp & Hsc & s' & Hs' & Hp' & Hsr)]; [auto|]. split.
      * rewrite Hsp, Hsc.
        destruct (merge_layer _ _ _ Hm) as [->| ->]; [|assumption]. rewrite <- Hp. apply C2; assumption.
      * rewrite Hsp, <- Hp', Hsr. apply C2; assumption.
  - assert (Hreach : reach entry file).
    { apply (v_reach _ _ _ _ I). right. rewrite Ht, todo_files. apply in_or_app; right; left; reflexivity. }
    assert (Hrule : layer_ok file (c_layer rule)).
    { apply (C1 (Call file rule)). rewrite Ht. apply in_or_app; right; left; reflexivity. }
    constructor; cbn [l_sheets l_todo].
    + intros x Hx. apply in_app_or in Hx as [Hx|Hx].
      * apply C1. rewrite Ht. apply in_app_or in Hx as [Hx|Hx]; apply in_or_app; cbn; auto.
      * destruct Hrule as (cs & Hcs & Hl).
        destruct (calls_of_in _ _ _ _ _ Hr Ha Hx) as [(ic & Hi & Hn)|[Hi Hn]].
        -- exists (cs ++ [ic]). split; [eapply Ch_import; eauto|].
           rewrite (chain_layer_app _ _ (named _ _ _ Hreach Hi)).
           unfold nested_conds in Hn. destruct (m_and _ _) as [m|]; [|discriminate].
           destruct (combine_layer (c_layer rule) (c_layer ic)) as [l|] eqn:El; [|discriminate].
           inversion Hn as [Hn']; clear Hn. cbn [c_layer]. rewrite Hl in El. unfold layer_of_chain in *.
           pose proof (chain_layer_none cs) as Hnone.
           pose proof (named _ _ _ Hreach Hi).
           destruct (layered cs); destruct (c_layer ic) as [[b|]|]; cbn in El; try congruence;
             inversion El; subst; cbn; rewrite ?(Hnone eq_refl); reflexivity.
        -- rewrite Hn. exists cs. split; [eapply Ch_composes; eauto|assumption].
    + intros s Hs. apply in_app_or in Hs as [Hs|[<-|[]]]; [auto|]. cbn. split; [assumption|].
      exists rs, rule. auto.
Qed.
Lemma loads_yinv : forall sched l, loads sched l -> yinv (LState l []).
Proof.
  intros sched l H.
  refine (proj2 (run_ind (fun st => inv st /\ yinv st) (conj inv_init _) yinv_step _ _ H)).
  constructor; cbn; [|tauto]. intros c [<-|[]]. exists []. split; [constructor|reflexivity].
Qed.
(** If all chains to a file give it the same layer, the file gets it. *)
Lemma layers_agree : forall sched l s cs, loads sched l -> In s l ->
    (forall cs cs', chain (sh_path s) cs -> chain (sh_path s) cs' -> layer_of_chain cs = layer_of_chain cs') ->
    chain (sh_path s) cs ->
    c_layer (sh_conds s) = layer_of_chain cs
    /\ exists rs, read (sh_path s) = Some rs /\ sh_rules s = in_layer (layer_of_chain cs) rs.
Proof.
  intros sched l s cs H Hs HU Hc. apply loads_yinv in H.
  destruct (yi_sheets _ H s Hs) as [(cs0 & Hc0 & E0) (rs & r0 & Hr & (cs1 & Hc1 & E1) & Hru)].
  split; [rewrite E0; auto|]. exists rs. split; [assumption|].
  rewrite Hru. unfold in_layer. apply map_ext. intros r. unfold prefix_layer.
  rewrite E1, (HU cs1 cs Hc1 Hc). destruct r; reflexivity.
Qed.
End Layers.
End Cond.
