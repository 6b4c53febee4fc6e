(** * Selectors that are printed are read back *)
From Coq Require Import List Bool ZArith Ascii String Lia Arith.
Import ListNotations.
From Verif Require AnimModel AnbSpec AnbProofs.
From Verif Require Import AnbModel SelTextModel SelTextSpec SelTextProofs SelTextLayout.
Local Open Scope list_scope.

Section Back.
Variable cfg : config.
Notation T := (flat_map (print_comp cfg)).
Notation N := (flat_map norm_comp).
Notation wt s := (map (fun x => (x, print_comp cfg x)) s).
Notation reads := (reads cfg).
Notation good := (good cfg).
Notation fine := (fine_comp cfg).
Definition ws (l : list tok) : Prop := Forall (fun t => t = Ws) l.
Definition starts (l : list tok) : Prop := match l with t :: _ => begins t = true | [] => False end.
(** The tokens of a selector *)
Definition text (first : bool) (s : sel) : list tok := walk (start_of first) (wt s).

Lemma simples_stop st l : stops l -> simples cfg st l = (st, Some ([], l)).
Proof. destruct l as [|[t f] l]; [reflexivity|]. destruct t; cbn; try discriminate; intros H; try reflexivity. destruct d; try discriminate; reflexivity. Qed.
Definition calm (l : list item) : Prop := match l with [] => True | (t, _) :: _ => begins_simple t = true \/ stop t = true end.
Lemma units_calm u rest : units u -> stops rest -> calm (items cfg u ++ rest).
Proof. destruct 1; cbn; auto. destruct rest as [|[t f] rest]; cbn; auto. Qed.
Lemma calm_type st l : calm l -> type_selector st l = Some ([], l).
Proof. destruct l as [|[t f] l]; [reflexivity|]. unfold type_selector. cbn. intros [H|H]; destruct t; try discriminate H; try reflexivity; destruct d; try discriminate H; reflexivity. Qed.
Lemma compound_units st u rest : units u -> u <> [] -> stops rest -> compound cfg st (items cfg u ++ rest) = simples cfg st (items cfg u ++ rest).
Proof.
  intros U E S.
  assert (K : forall t l, begins_simple t = true -> t <> Delim Amp -> compound cfg st ((t, fn cfg t) :: l) = simples cfg st ((t, fn cfg t) :: l)).
  { intros t l B A. unfold compound. assert (SK : skip ((t, fn cfg t) :: l) = (t, fn cfg t) :: l) by (destruct t; try discriminate B; reflexivity). rewrite SK.
    assert (M : forall (X : list comp * state * list item), match t with Delim Amp => if nesting_allowed cfg then ([Nesting], set_nesting true st, l) else X | _ => X end = X).
    { destruct t; auto. destruct d; auto. contradiction. }
    rewrite M. rewrite calm_type by (cbn; auto). cbn [app]. apply prepend_nil. }
  destruct U; try contradiction; try (cbn [items map app]; apply K; [reflexivity|discriminate]).
  cbn [items map app]. unfold compound. cbn [skip]. destruct (nesting_allowed cfg) eqn:NA.
  - rewrite calm_type by (apply units_calm; assumption). cbn [app simples]. rewrite NA. reflexivity.
  - rewrite calm_type by (cbn; auto). apply prepend_nil.
Qed.
(** Type selectors *)
Lemma named_text t : named t -> N t = t /\ starts (T t) /\ no_comma (T t).
Proof. intros ([] & [nm|] & ->); (split; [reflexivity|]); (split; [reflexivity|]); repeat constructor; discriminate. Qed.
Lemma named_read st t X : named t -> after_pseudo st = false -> calm X -> type_selector st (items cfg (T t) ++ X) = Some (t, X).
Proof.
  intros ([] & [nm|] & ->) H C; unfold type_selector; cbn; rewrite H; try reflexivity; destruct X as [|[x fx] X]; rewrite ?H; try reflexivity;
    destruct C as [C|C]; destruct x; try discriminate C; try reflexivity; destruct d; try discriminate C; reflexivity.
Qed.

Lemma compound_back l st st' cs r : Forall good l -> compound cfg st l = (st', Some (cs, r)) -> cs <> [] -> Forall fine cs ->
  (after_pseudo st' = false -> existsb is_comb cs = false) /\ no_combinators st' = no_combinators st /\ (existsb is_comb cs = false -> core st' = core st) /\ no_pseudos st' = no_pseudos st /\ Forall good r /\
  exists n t c, cs = n ++ t ++ c /\ (n = [] \/ n = [Nesting]) /\ (t = [] \/ named t) /\ Forall (fun c => plain c = true) c /\
    (t = [] -> reads st st' cs) /\
    forall first, ns_ok first cs -> starts (text first cs) /\ no_comma (text first cs) /\ norm first cs <> [] /\
      forall st1, le st1 st -> exists st2, core st2 = core st' /\ no_pseudos st2 = no_pseudos st1 /\ after_nesting st2 = after_nesting st1 || existsb nests cs /\
        forall pre rest, ws pre -> stops rest -> compound cfg st1 (items cfg (pre ++ text first cs) ++ rest) = (st2, Some (norm first cs, rest)).
Proof.
  intros G H E F. destruct (compound_reads cfg l st st' cs r G H F) as (n & t & c & -> & Hn & Ht & R & Rc & Gr).
  assert (Hn' : n = [] \/ n = [Nesting]) by tauto. assert (Ht' : t = [] \/ named t) by tauto.
  assert (TC : existsb is_comb t = false).
  { destruct (type_cases t Ht') as [->|[->|[[s ->]|[(k & K & ->)|(k & s & K & ->)]]]]; cbn; auto; destruct k; try discriminate K; reflexivity. }
  assert (TN : existsb nests t = false).
  { destruct (type_cases t Ht') as [->|[->|[[s ->]|[(k & K & ->)|(k & s & K & ->)]]]]; cbn; auto; destruct k; try discriminate K; reflexivity. }
  assert (EC : existsb is_comb (n ++ t ++ c) = existsb is_comb (n ++ c)) by (rewrite !existsb_app, TC; reflexivity).
  assert (EN : existsb nests (n ++ t ++ c) = existsb nests (n ++ c)) by (rewrite !existsb_app, TN; reflexivity).
  split; [rewrite EC; apply (r_comb _ _ _ _ R)|]. split; [apply (r_nc _ _ _ _ R)|]. split; [rewrite EC; apply (r_core _ _ _ _ R)|]. split; [apply (r_np _ _ _ _ R)|]. split; [exact Gr|].
  exists n, t, c. split; [reflexivity|]. split; [exact Hn'|]. split; [exact Ht'|]. pose proof (r_plain _ _ _ _ Rc) as PL. split; [exact PL|].
  split; [intros ->; exact R|].
  intros first NS. unfold text, norm. rewrite !walk_compound by auto. rewrite EN.
  assert (D : drop first n t (alone_comps c) = t /\ t <> [] \/ drop first n t (alone_comps c) = [] /\ n ++ c <> []).
  { destruct (type_cases t Ht') as [->|[->|[[s ->]|[(k & K & ->)|(k & s & K & ->)]]]]; try (left; split; [destruct k; try discriminate K; reflexivity|discriminate]).
    - right. split; [reflexivity|exact E].
    - cbn [drop]. destruct (match n with [] => alone_comps c | _ => first && alone_comps c end) eqn:Q; [left; split; [reflexivity|discriminate]|]. right. split; [reflexivity|].
      destruct Hn' as [->| ->]; [destruct c; [discriminate Q|discriminate]|discriminate].
    - left. split; [reflexivity|discriminate]. }
  destruct D as [[-> T0]|[-> T0]].
  - destruct Ht as [->|[NT AP]]; [contradiction|]. destruct (named_text t NT) as (N1 & N2 & N3).
    pose proof (r_units _ _ _ _ Rc) as Uc.
    split; [|split; [|split]].
    + destruct Hn' as [->| ->]; cbn [app flat_map]; [rewrite flat_map_app; destruct (T t); [destruct N2|exact N2]|reflexivity].
    + rewrite !flat_map_app. apply Forall_app. split; [destruct Hn' as [->| ->]; repeat constructor; discriminate|]. apply Forall_app. split; [exact N3|apply units_no_comma; exact Uc].
    + rewrite !flat_map_app, N1. destruct Hn' as [->| ->]; [|discriminate]. destruct t; [contradiction|discriminate].
    + intros st1 L. set (s1 := if n then st1 else set_nesting true st1).
      assert (L1 : le s1 (if n then st else set_nesting true st)) by (unfold s1; destruct n; exact L).
      destruct (r_read _ _ _ _ Rc s1 L1) as (s2 & C2 & P2 & M2 & R2). exists s2. split; [exact C2|]. split; [rewrite P2; unfold s1; destruct n; reflexivity|].
      split; [rewrite M2, existsb_app; unfold s1; destruct Hn' as [->| ->]; cbn; rewrite ?orb_true_r; reflexivity|].
      intros pre rest W S. rewrite items_app, <- app_assoc. unfold compound. rewrite skip_ws by exact W.
      assert (AP1 : after_pseudo s1 = false). { rewrite <- AP. destruct L as [L _]. unfold s1. destruct n; apply (core_pseudo _ _ L). }
      assert (TS : type_selector s1 (items cfg (T t) ++ items cfg (T c) ++ rest) = Some (t, items cfg (T c) ++ rest)) by (apply named_read; auto; apply units_calm; auto).
      rewrite !flat_map_app, !items_app, <- !app_assoc.
      assert (FIN : prepend (n ++ t) (simples cfg s1 (items cfg (T c) ++ rest)) = (s2, Some (N n ++ N t ++ N c, rest))).
      { rewrite R2, simples_stop by exact S. cbn [prepend]. rewrite app_nil_r, N1. destruct Hn' as [->| ->]; cbn [app flat_map norm_comp]; reflexivity. }
      destruct Hn as [->|[-> NA]].
      * cbn [flat_map app items map].
        assert (SK : skip (items cfg (T t) ++ items cfg (T c) ++ rest) = items cfg (T t) ++ items cfg (T c) ++ rest /\ match items cfg (T t) ++ items cfg (T c) ++ rest with (Delim Amp, _) :: _ => False | _ => True end).
        { destruct NT as ([] & [nm|] & ->); cbn; auto. }
        destruct SK as [SK NAmp]. unfold s1 in *. rewrite SK.
        assert (Q : match items cfg (T t) ++ items cfg (T c) ++ rest with (Delim Amp, _) :: r => if nesting_allowed cfg then ([Nesting], set_nesting true st1, r) else ([], st1, items cfg (T t) ++ items cfg (T c) ++ rest) | _ => ([], st1, items cfg (T t) ++ items cfg (T c) ++ rest) end = ([], st1, items cfg (T t) ++ items cfg (T c) ++ rest)).
        { destruct (items cfg (T t) ++ items cfg (T c) ++ rest) as [|[[] fx] X]; auto. destruct d; auto. destruct NAmp. }
        cbn [app] in Q. cbn [app]. rewrite Q, TS. exact FIN.
      * cbn [flat_map app items map skip print_comp]. rewrite NA. unfold s1 in *. rewrite TS. exact FIN.
  - cbn [app]. pose proof (r_units _ _ _ _ R) as U. pose proof (r_solid _ _ _ _ R T0) as SO.
    split; [|split; [|split; [exact (r_full _ _ _ _ R T0)|]]].
    + pose proof (units_begin _ U) as B. destruct (T (n ++ c)) as [|t0 u]; [contradiction|]. unfold starts. destruct t0; try discriminate B; try reflexivity. destruct d; try discriminate B; reflexivity.
    + apply units_no_comma. exact U.
    + intros st1 L. destruct (r_read _ _ _ _ R st1 L) as (s2 & C2 & P2 & M2 & R2). exists s2. repeat (split; [assumption|]).
      intros pre rest W S.
      assert (Q : compound cfg st1 (items cfg (pre ++ T (n ++ c)) ++ rest) = compound cfg st1 (items cfg (T (n ++ c)) ++ rest)).
      { unfold compound. rewrite items_app, <- app_assoc, skip_ws by exact W. reflexivity. }
      rewrite Q, compound_units by assumption. rewrite R2, simples_stop by exact S. cbn [prepend]. rewrite app_nil_r. reflexivity.
Qed.

(** *** Combinators *)
Lemma combinator_real ws0 l k r : Forall good l -> read_combinator cfg ws0 l = CSome k r -> real k /\ (k = DeepDescendant \/ k = Deep -> cfg.(deep) = true) /\ Forall good r.
Proof.
  intros G. revert ws0. induction G as [|[t f] l G0 G IH]; intros b; [discriminate|].
  assert (DESC : (if b then CSome Descendant ((t, f) :: l) else CStop ((t, f) :: l)) = CSome k r -> real k /\ (k = DeepDescendant \/ k = Deep -> cfg.(deep) = true) /\ Forall good r).
  { destruct b; [|discriminate]. intros H. injection H as <- <-. split; [exact I|]. split; [intros [X|X]; discriminate X|]. constructor; assumption. }
  assert (ONE : forall k0 r0, real k0 -> k0 <> DeepDescendant -> k0 <> Deep -> Forall good r0 -> CSome k0 r0 = CSome k r -> real k /\ (k = DeepDescendant \/ k = Deep -> cfg.(deep) = true) /\ Forall good r).
  { intros k0 r0 K0 K1 K2 G1 H. injection H as <- <-. split; [exact K0|]. split; [intros [X|X]; contradiction|exact G1]. }
  destruct t; cbn [read_combinator]; try exact DESC; [apply IH|].
  destruct d; try exact DESC; try (apply ONE; [exact I|discriminate|discriminate|exact G]).
  - destruct (deep cfg) eqn:D; [|apply ONE; [exact I|discriminate|discriminate|exact G]].
    pose proof (skip_good _ _ G) as G1. destruct (skip l) as [|[[] f1] r1]; try (apply ONE; [exact I|discriminate|discriminate|exact G]).
    destruct d; try (apply ONE; [exact I|discriminate|discriminate|exact G]). inversion G1 as [|? ? G2 G3]; subst. pose proof (skip_good _ _ G3) as G4.
    destruct (skip r1) as [|[[] f2] r2]; try (apply ONE; [exact I|discriminate|discriminate|exact G]).
    destruct d; try (apply ONE; [exact I|discriminate|discriminate|exact G]). intros H. injection H as <- <-. split; [exact I|]. split; [auto|]. inversion G4; assumption.
  - destruct (deep cfg) eqn:D; [|exact DESC]. pose proof (skip_good _ _ G) as G1. destruct (skip l) as [|[[] f1] r1]; try discriminate.
    destruct (is_kw "deep" s); [|discriminate]. inversion G1 as [|? ? G2 G3]; subst. pose proof (skip_good _ _ G3) as G4. destruct (skip r1) as [|[[] f2] r2]; try discriminate. destruct d; try discriminate.
    intros H. injection H as <- <-. split; [exact I|]. split; [auto|]. inversion G4; assumption.
Qed.
Lemma starts_read b w : starts w -> read_combinator cfg b (items cfg w) = (if b then CSome Descendant (items cfg w) else CStop (items cfg w)) /\ skip (items cfg w) = items cfg w
  /\ match items cfg w with (Delim Gt, _) :: _ | (Delim Slash, _) :: _ => False | _ => True end.
Proof. destruct w as [|t w]; [intros []|]. cbn. intros H. destruct t; try discriminate H; cbn; auto. destruct d; try discriminate H; cbn; auto. Qed.
Lemma combinator_back k w : real k -> (k = DeepDescendant \/ k = Deep -> cfg.(deep) = true) -> starts w ->
  (exists pre, ws pre /\ read_combinator cfg false (items cfg (print_comb cfg k ++ w)) = CSome k (items cfg (pre ++ w))) /\ stops (items cfg (print_comb cfg k ++ w)).
Proof.
  intros K D S. pose proof (starts_read true w S) as [R1 [SK NG]].
  assert (WS : ws (space cfg)) by (unfold space; destruct (minify cfg); repeat constructor).
  assert (SP : forall x, skip (items cfg (space cfg ++ x)) = skip (items cfg x)) by (intros; rewrite items_app; apply skip_ws; exact WS).
  assert (CH : read_combinator cfg false ((Delim Gt, fn cfg (Delim Gt)) :: items cfg (space cfg ++ w)) = CSome Child (items cfg (space cfg ++ w))).
  { cbn [read_combinator]. destruct (deep cfg); [|reflexivity]. rewrite SP, SK. destruct (items cfg w) as [|[[] f] x]; try reflexivity. destruct d; try reflexivity. destruct NG. }
  destruct k; try destruct K; cbn [print_comb].
  - split; [exists (space cfg); split; [exact WS|]|]; unfold space in *; destruct (minify cfg); cbn [app items map read_combinator stops] in *; auto; exact CH.
  - split; [exists []; split; [constructor|]|]; [|reflexivity]. cbn [app items map read_combinator]. exact R1.
  - split; [exists (space cfg); split; [exact WS|]|]; unfold space in *; destruct (minify cfg); cbn [app items map read_combinator stops] in *; auto.
  - split; [exists (space cfg); split; [exact WS|]|]; unfold space in *; destruct (minify cfg); cbn [app items map read_combinator stops] in *; auto.
  - rewrite <- app_assoc. cbn [app]. specialize (D (or_introl eq_refl)). split; [exists (space cfg); split; [exact WS|]|]; unfold space in *; destruct (minify cfg); cbn [app items map read_combinator skip stops] in *; rewrite ?D; auto.
  - specialize (D (or_intror eq_refl)). split; [exists [Ws]; split; [repeat constructor|]|reflexivity]. cbn [app items map read_combinator skip]. rewrite D. reflexivity.
Qed.

(** *** Selectors *)
Lemma ns_ok_split first a k b : ns_ok first (a ++ Comb k :: b) -> ns_ok first a /\ ns_ok false b.
Proof.
  intros H. split; intros x n y E K.
  - apply (H x n (y ++ Comb k :: b)); [|exact K]. rewrite E, <- app_assoc. reflexivity.
  - destruct (H (a ++ Comb k :: x) n y) as [_ Q]; [rewrite E, <- app_assoc; reflexivity|exact K|]. destruct a; discriminate Q.
Qed.
Lemma pseudo_silent k : ~ real k -> print_comb cfg k = [].
Proof. destruct k; cbn; intros H; try reflexivity; destruct H; exact I. Qed.
Lemma text_join first a k b : real k -> text first (a ++ Comb k :: b) = text first a ++ print_comb cfg k ++ text false b.
Proof. intros K. unfold text. rewrite walk_join by exact K. reflexivity. Qed.
Lemma norm_join first a k b : real k -> norm first (a ++ Comb k :: b) = norm first a ++ Comb k :: norm false b.
Proof. intros K. unfold norm. rewrite walk_join by exact K. reflexivity. Qed.
Lemma comb_no_comma k : no_comma (print_comb cfg k).
Proof. unfold no_comma. destruct k; cbn; unfold space; destruct (minify cfg); repeat constructor; discriminate. Qed.

Lemma loop_back fuel : forall st l st' s r, Forall good l -> selector_loop cfg fuel st l = (st', Some (s, r)) -> Forall fine s ->
  s <> [] /\ (existsb is_comb s = false -> no_type s -> reads st st' s) /\ (existsb is_comb s = false -> core st' = core st) /\
  forall first, ns_ok first s ->
    layout (print_comb cfg) false first (combs_of (wt s)) (split_compounds (wt s)) = text first s /\ starts (text first s) /\ no_comma (text first s) /\
    forall st1, le st1 st -> exists st2, after_nesting st2 = after_nesting st1 || existsb nests s /\
      forall fuel1 pre, ws pre -> List.length (text first s) < fuel1 -> selector_loop cfg fuel1 st1 (items cfg (pre ++ text first s)) = (st2, Some (norm first s, [])).
Proof.
  induction fuel as [|fuel IH]; [discriminate|]. intros st l st' s r G H F. cbn [selector_loop] in H.
  destruct (compound cfg st l) as [sa [[cs ra]|]] eqn:C; [|discriminate].
  assert (E : cs <> []) by (intros ->; discriminate H).
  assert (H' : (if after_pseudo sa then match skip ra with [] => (sa, Some (cs, [])) | _ => (sa, None) end
                else match read_combinator cfg false ra with CEnd => (sa, Some (cs, [])) | CStop r' => (sa, Some (cs, r')) | CSome k r' => if sa.(no_combinators) then (sa, None) else prepend (cs ++ [Comb k]) (selector_loop cfg fuel sa r') end) = (st', Some (s, r))).
  { destruct cs; [contradiction|exact H]. }
  clear H. rename H' into H.
  assert (END : (exists x, (sa, Some (cs, x)) = (st', Some (s, r))) -> s <> [] /\ (existsb is_comb s = false -> no_type s -> reads st st' s) /\ (existsb is_comb s = false -> core st' = core st) /\
    forall first, ns_ok first s ->
    layout (print_comb cfg) false first (combs_of (wt s)) (split_compounds (wt s)) = text first s /\ starts (text first s) /\ no_comma (text first s) /\
    forall st1, le st1 st -> exists st2, after_nesting st2 = after_nesting st1 || existsb nests s /\
      forall fuel1 pre, ws pre -> List.length (text first s) < fuel1 -> selector_loop cfg fuel1 st1 (items cfg (pre ++ text first s)) = (st2, Some (norm first s, []))).
  { intros [x Ex]. injection Ex as <- <- _.
    destruct (compound_back l st sa cs ra G C E F) as (Hcb & Hnc & Hco & Hnp & Gr & n & t & c & Ecs & Hn & Ht & PL & NT & B).
    split; [exact E|]. split; [|split; [exact Hco|]].
    { intros _ NTy. apply NT. destruct Ht as [Ht|Ht]; [exact Ht|]. exfalso. rewrite Ecs in NTy. unfold no_type in NTy. rewrite !Forall_app in NTy. destruct NTy as (_ & NTy & _).
      destruct Ht as ([] & [nm|] & ->); cbn in NTy; inversion NTy as [|? ? [X1 X2] X3]; subst; try discriminate X1; discriminate X2. }
    intros first NS. destruct (B first NS) as (B1 & B2 & B0 & B3). split; [|split; [exact B1|split; [exact B2|]]].
    - unfold text. rewrite Ecs in NS |- *. rewrite walk_compound by auto. apply layout_end; auto. apply pseudo_silent.
    - intros st1 L. destruct (B3 st1 L) as (s2 & C2 & P2 & M2 & R2). exists s2. split; [exact M2|]. intros fuel1 pre W Hf.
      destruct fuel1 as [|fuel1]; [lia|]. cbn [selector_loop]. pose proof (R2 pre [] W I) as Q. rewrite app_nil_r in Q. rewrite Q.
      destruct (norm first cs) as [|y z]; [contradiction|]. destruct (after_pseudo s2); reflexivity. }
  destruct (after_pseudo sa) eqn:AP.
  { destruct (skip ra); [|discriminate]. apply END. eexists. exact H. }
  destruct (read_combinator cfg false ra) as [|r'|k r'] eqn:RC; [apply END; eexists; exact H|apply END; eexists; exact H|].
  destruct (no_combinators sa) eqn:NC; [discriminate|]. apply prepend_some in H. destruct H as (b & -> & H).
  rewrite <- app_assoc in F |- *. cbn [app] in F |- *. apply Forall_app in F. destruct F as [Fa Fb]. inversion Fb as [|? ? _ Fb']; subst. clear Fb. rename Fb' into Fb.
  destruct (compound_back l st sa cs ra G C E Fa) as (Hcb & Hnc & Hco & Hnp & Gr & n & t & c & Ecs & Hn & Ht & PL & NT & B).
  destruct (combinator_real _ _ _ _ Gr RC) as (K1 & K2 & Gr').
  destruct (IH _ _ _ _ _ Gr' H Fb) as (Eb & _ & _ & Bb).
  assert (CB : existsb is_comb (cs ++ Comb k :: b) = true) by (rewrite existsb_app; cbn; apply orb_true_r).
  split; [destruct cs; discriminate|]. split; [rewrite CB; discriminate|]. split; [rewrite CB; discriminate|].
  intros first NS. destruct (ns_ok_split _ _ _ _ NS) as [NSa NSb]. destruct (B first NSa) as (B1 & B2 & B0 & B3). destruct (Bb false NSb) as (L4 & B4 & B5 & B6).
  rewrite (text_join first cs k b K1), (norm_join first cs k b K1).
  split; [|split; [|split]].
  - rewrite layout_mid by auto. rewrite L4. f_equal. unfold text. rewrite Ecs in NSa |- *. rewrite walk_compound, write_compound_flat by auto. do 4 f_equal.
    assert (c = [] \/ exists y z, c = y :: z /\ is_comb y = false) as [->|(y & z & -> & Y)].
    { destruct c as [|y z]; [auto|]. right. exists y, z. split; [reflexivity|]. specialize (Hcb AP). rewrite Ecs, !existsb_app in Hcb. apply orb_false_iff in Hcb. destruct Hcb as [_ Hcb]. apply orb_false_iff in Hcb. destruct Hcb as [_ Hcb]. cbn in Hcb. apply orb_false_iff in Hcb. tauto. }
    + destruct k; try destruct K1; reflexivity.
    + destruct y; try discriminate Y; reflexivity.
  - destruct (text first cs); [destruct B1|exact B1].
  - apply Forall_app. split; [exact B2|]. apply Forall_app. split; [apply comb_no_comma|exact B5].
  - intros st1 L. destruct (B3 st1 L) as (s2 & C2 & P2 & M2 & R2).
    destruct (B6 s2) as (s3 & M3 & R3). { split; [exact C2|]. rewrite P2, Hnp. apply L. }
    exists s3. split; [rewrite M3, M2, existsb_app; cbn; rewrite orb_assoc; reflexivity|].
    intros fuel1 pre W Hf. destruct fuel1 as [|fuel1]; [lia|]. cbn [selector_loop].
    destruct (combinator_back k (text false b) K1 K2 B4) as [(pre' & W' & RB) ST].
    rewrite app_assoc, items_app, R2 by auto.
    replace (match norm first cs with [] => (s2, None) | _ :: _ => _ end) with
      (if after_pseudo s2 then (s2, None) else if no_combinators s2 then (s2, None : option (list comp * list item)) else prepend (norm first cs ++ [Comb k]) (selector_loop cfg fuel1 s2 (items cfg (pre' ++ text false b)))).
    2:{ destruct (norm first cs) as [|y z]; [contradiction|]. rewrite (core_pseudo _ _ C2), AP. rewrite RB. reflexivity. }
    rewrite (core_pseudo _ _ C2), AP. replace (no_combinators s2) with false by (unfold core in C2; congruence).
    rewrite R3; [cbn [prepend]; rewrite <- app_assoc; reflexivity|exact W'|]. rewrite !app_length in Hf. destruct (text first cs); [destruct B1|]. cbn in Hf. lia.
Qed.

Lemma fine_sel_inv s : fine_sel cfg s -> Forall fine s /\ ns_ok true s.
Proof. intros H. inversion H; subst. split; [assumption|]. intros a n b E K. split; [reflexivity|]. eapply H1; eauto. Qed.
Lemma selector_loop_of implicit st l st' s : selector cfg implicit st l = (st', Some s) ->
  exists cs r, selector_loop cfg (S (List.length l)) st l = (st', Some (cs, r)) /\ s = if implicit && negb st'.(after_nesting) then Nesting :: Comb Descendant :: cs else cs.
Proof. unfold selector. destruct (selector_loop _ _ _ _) as [sa [[cs r]|]]; [|discriminate]. destruct (skip r); [|discriminate]. intros H. injection H as <- <-. eauto. Qed.

(** A selector that can be read back in a state, with its tokens and what is read *)
Definition back (one : state -> list item -> state * option sel) (tk : list tok) (s s' : sel) (st1 : state) : Prop :=
  exists st2, after_nesting st2 = after_nesting st1 || existsb nests s /\ forall pre, ws pre -> one st1 (items cfg (pre ++ tk)) = (st2, Some s').

Lemma selector_of_loop st1 first s st2 : starts (text first s) ->
  (forall fuel1 pre, ws pre -> List.length (text first s) < fuel1 -> selector_loop cfg fuel1 st1 (items cfg (pre ++ text first s)) = (st2, Some (norm first s, []))) ->
  forall pre, ws pre -> selector cfg false st1 (items cfg (pre ++ text first s)) = (st2, Some (norm first s)).
Proof.
  intros _ H pre W. unfold selector. rewrite H; [reflexivity|exact W|]. unfold items. rewrite map_length, app_length. lia.
Qed.
Lemma selector_back st l st' s : Forall good l -> selector cfg false st l = (st', Some s) -> fine_sel cfg s ->
  s <> [] /\ print_sel cfg false s = text true s /\ no_comma (text true s) /\ starts (text true s) /\ forall st1, le st1 st -> back (selector cfg false) (text true s) s (norm true s) st1.
Proof.
  intros G H F. destruct (fine_sel_inv s F) as [Fs NS]. apply selector_loop_of in H. destruct H as (cs & r & H & ->). cbn [andb] in *.
  destruct (loop_back _ _ _ _ _ _ G H Fs) as (E & _ & _ & B). destruct (B true NS) as (L1 & B1 & B2 & B3). split; [exact E|]. split; [exact L1|]. split; [exact B2|]. split; [exact B1|].
  intros st1 L. destruct (B3 st1 L) as (s2 & M2 & R2). exists s2. split; [exact M2|]. intros pre W. eapply selector_of_loop; eauto.
Qed.

(** *** Relative selectors *)
Lemma leads_split b s : scope_leads b s = false ->
  Forall (fun c => match c with (Scope, _) :: _ => False | _ => True end) (tl (split_compounds (wt s))) /\ (b = true -> match split_compounds (wt s) with ((Scope, _) :: _) :: _ => False | _ => True end).
Proof.
  revert b. induction s as [|c s IH]; intros b H; [split; [constructor|intros; exact I]|].
  destruct (split_cons (print_comp cfg) s) as (x & m & E).
  assert (K : (exists k, c = Comb k) \/ c = Scope \/ (is_comb c = false /\ c <> Scope)) by (destruct c; eauto; right; right; split; auto; discriminate).
  destruct K as [[k ->]|[->|[K1 K2]]].
  - cbn [scope_leads] in H. destruct (IH _ H) as [I1 I2]. specialize (I2 eq_refl). cbn [map split_compounds tl]. split; [|auto]. rewrite E in *. constructor; [|exact I1]. destruct x as [|[[] ?] ?]; auto.
  - cbn [scope_leads] in H. apply orb_false_iff in H. destruct H as [-> H]. destruct (IH _ H) as [I1 I2]. cbn [map split_compounds]. rewrite E in *. split; [exact I1|discriminate].
  - assert (H' : scope_leads false s = false) by (destruct c; try exact H; try discriminate K1; contradiction).
    destruct (IH _ H') as [I1 I2]. assert (SP : split_compounds (wt (c :: s)) = ((c, print_comp cfg c) :: x) :: m) by (destruct c; try discriminate K1; cbn [map split_compounds]; rewrite E; reflexivity).
    rewrite SP. rewrite E in I1. split; [exact I1|]. intros _. destruct c; auto; contradiction.
Qed.
Lemma layout_no_scope first combs l : Forall (fun c : list (comp * list tok) => match c with (Scope, _) :: _ => False | _ => True end) l ->
  layout (print_comb cfg) true first combs l = layout (print_comb cfg) false first combs l.
Proof.
  intros H. revert first combs. induction H as [|c l Hc H IH]; intros first combs; [reflexivity|]. cbn [layout].
  destruct c as [|[[] y] z]; try (rewrite !IH; reflexivity). destruct Hc.
Qed.
Lemma print_no_scope s : scope_leads true s = false -> print_sel cfg true s = print_sel cfg false s.
Proof.
  intros H. unfold print_sel, write_selector. apply layout_no_scope. destruct (leads_split true s H) as [H1 H2]. specialize (H2 eq_refl).
  destruct (split_compounds (wt s)) as [|x m]; [constructor|]. constructor; [|exact H1]. destruct x as [|[[] ?] ?]; auto.
Qed.
Lemma print_scope k s : print_sel cfg true (Scope :: Comb k :: s) = print_comb cfg k ++ print_sel cfg false s.
Proof. reflexivity. Qed.
Lemma loop_tail fuel st l st' k s0 r : Forall good l -> selector_loop cfg fuel st l = (st', Some (Scope :: Comb k :: s0, r)) -> Forall fine (Scope :: Comb k :: s0) -> real k ->
  exists fuel' l' sa, Forall good l' /\ core sa = core st /\ no_pseudos sa = no_pseudos st /\ selector_loop cfg fuel' sa l' = (st', Some (s0, r)).
Proof.
  intros G H F K. destruct fuel as [|fuel]; [discriminate|]. cbn [selector_loop] in H.
  destruct (compound cfg st l) as [sa [[cs ra]|]] eqn:C; [|discriminate].
  assert (E : cs <> []) by (intros ->; discriminate H).
  assert (H' : (if after_pseudo sa then match skip ra with [] => (sa, Some (cs, [])) | _ => (sa, None) end
                else match read_combinator cfg false ra with CEnd => (sa, Some (cs, [])) | CStop r' => (sa, Some (cs, r')) | CSome k r' => if sa.(no_combinators) then (sa, None) else prepend (cs ++ [Comb k]) (selector_loop cfg fuel sa r') end) = (st', Some (Scope :: Comb k :: s0, r))).
  { destruct cs; [contradiction|exact H]. }
  clear H. rename H' into H.
  assert (END : (exists x, (sa, Some (cs, x)) = (st', Some (Scope :: Comb k :: s0, r))) -> False).
  { intros [x Ex]. injection Ex as <- -> _.
    destruct (compound_back l st sa _ ra G C E F) as (_ & _ & _ & _ & _ & n & t & c & Ecs & Hn & Ht & PL & _).
    assert (In (Comb k) (n ++ t ++ c)) as I by (rewrite <- Ecs; right; left; reflexivity). rewrite !in_app_iff in I.
    destruct I as [I|[I|I]].
    - destruct Hn as [->| ->]; [destruct I|]. destruct I as [I|[]]. discriminate I.
    - destruct Ht as [->|([] & [nm|] & ->)]; cbn in I; repeat destruct I as [I|I]; try discriminate I; destruct I.
    - rewrite Forall_forall in PL. specialize (PL _ I). destruct k; try discriminate PL; destruct K. }
  destruct (after_pseudo sa) eqn:AP.
  { destruct (skip ra); [|discriminate]. exfalso. apply END. eexists. exact H. }
  destruct (read_combinator cfg false ra) as [|r'|k' r'] eqn:RC; [exfalso; apply END; eexists; exact H|exfalso; apply END; eexists; exact H|].
  destruct (no_combinators sa) eqn:NC; [discriminate|]. apply prepend_some in H. destruct H as (b & Eb & H). rewrite <- app_assoc in Eb. cbn [app] in Eb.
  assert (Fc : Forall fine cs) by (rewrite Eb in F; apply Forall_app in F; tauto).
  destruct (compound_back l st sa cs ra G C E Fc) as (Hcb & Hnc & Hco & Hnp & Gr & _). specialize (Hcb AP).
  destruct cs as [|c1 [|c2 cs]]; [contradiction| |].
  - cbn in Eb. injection Eb as <- <- <-. exists fuel, r', sa. destruct (combinator_real _ _ _ _ Gr RC) as (_ & _ & G'). auto.
  - cbn in Eb. injection Eb as <- <- _. discriminate Hcb.
Qed.
Lemma relative_of cfg' st1 w : starts w -> forall pre, ws pre -> relative_selector cfg' false st1 (items cfg (pre ++ w)) = selector cfg' false st1 (items cfg (pre ++ w)).
Proof.
  intros S pre W. unfold relative_selector. rewrite items_app, skip_ws by exact W. destruct w as [|t w]; [destruct S|]. cbn in S.
  destruct t; try discriminate S; cbn [items map skip]; try reflexivity. destruct d; try discriminate S; reflexivity.
Qed.
Lemma sub_ns k s : ns_ok true (Scope :: Comb k :: s) -> ns_ok true s.
Proof. intros H a n b E K. destruct (H (Scope :: Comb k :: a) n b) as [_ X]; [rewrite E; reflexivity|exact K|discriminate X]. Qed.
Lemma relative_back st l st' s : Forall good l -> relative_selector cfg false st l = (st', Some s) -> fine_sel cfg s -> fine_relative s ->
  no_comma (print_sel cfg true s) /\ forall st1, le st1 st -> back (relative_selector cfg false) (print_sel cfg true s) s (norm_rel s) st1.
Proof.
  intros G H F FR. destruct (fine_sel_inv s F) as [Fs NS].
  assert (WS : ws (space cfg)) by (unfold space; destruct (minify cfg); repeat constructor).
  assert (GO : forall k r, Forall good r -> In k [Child; NextSibling; LaterSibling] -> match selector cfg false st r with (st, Some s) => (st, Some (Scope :: Comb k :: s)) | x => x end = (st', Some s) ->
     no_comma (print_sel cfg true s) /\ forall st1, le st1 st -> back (relative_selector cfg false) (print_sel cfg true s) s (norm_rel s) st1).
  { intros k r Gr I E. destruct (selector cfg false st r) as [sa [s0|]] eqn:S0; [|discriminate]. injection E as <- <-.
    assert (F0 : fine_sel cfg s0).
    { constructor; [inversion Fs as [|? ? _ F1]; inversion F1; assumption|]. intros a n b E K. apply (sub_ns _ _ NS a n b E K). }
    destruct (selector_back _ _ _ _ Gr S0 F0) as (_ & P0 & NC0 & ST0 & B0).
    rewrite print_scope, P0. split; [apply Forall_app; split; [apply comb_no_comma|exact NC0]|].
    intros st1 L. destruct (B0 st1 L) as (s2 & M2 & R2). exists s2. split; [exact M2|]. intros pre W. unfold relative_selector. rewrite items_app, skip_ws by exact W.
    assert (SP : forall x, skip (items cfg (space cfg ++ x)) = skip (items cfg x)) by (intros; rewrite items_app; apply skip_ws; exact WS).
    destruct I as [<-|[<-|[<-|[]]]]; cbn [print_comb]; rewrite <- !app_assoc; cbn [app]; rewrite SP; cbn [items map skip]; fold (items cfg (space cfg ++ text true s0)); rewrite R2 by exact WS; reflexivity. }
  assert (SEL : selector cfg false st l = (st', Some s) -> no_comma (print_sel cfg true s) /\ forall st1, le st1 st -> back (relative_selector cfg false) (print_sel cfg true s) s (norm_rel s) st1).
  { intros S0.
    assert (PLAIN : scope_leads true s = false -> no_comma (print_sel cfg true s) /\ forall st1, le st1 st -> back (relative_selector cfg false) (print_sel cfg true s) s (norm_rel s) st1).
    { intros SL. destruct (selector_back _ _ _ _ G S0 F) as (_ & P0 & NC0 & ST0 & B0). rewrite print_no_scope, P0 by exact SL. split; [exact NC0|].
      intros st1 L. destruct (B0 st1 L) as (s2 & M2 & R2). exists s2. split; [exact M2|]. intros pre W. rewrite relative_of by assumption. rewrite R2 by exact W.
      replace (norm_rel s) with (norm true s); [reflexivity|]. destruct s as [|[] s]; try reflexivity. discriminate SL. }
    destruct s as [|c s]; [apply PLAIN; reflexivity|]. destruct c; try (apply PLAIN; exact FR). destruct s as [|c s]; [apply PLAIN; exact FR|]. destruct c; try (apply PLAIN; exact FR).
    assert (RK : In k [Child; NextSibling; LaterSibling; Descendant]) by (destruct k; cbn; auto; discriminate FR).
    assert (real k) as K by (destruct k; try exact I; cbn in RK; repeat destruct RK as [RK|RK]; try discriminate RK; destruct RK).
    apply selector_loop_of in S0. destruct S0 as (cs & r & S0 & Ecs). cbn [andb] in Ecs. subst cs.
    destruct (loop_tail _ _ _ _ _ _ _ G S0 Fs K) as (fuel' & l' & sa & G' & C' & P' & S1).
    assert (Fs0 : Forall fine s) by (inversion Fs as [|? ? _ F1]; inversion F1; assumption).
    destruct (loop_back _ _ _ _ _ _ G' S1 Fs0) as (E0 & _ & _ & B). destruct (B true (sub_ns _ _ NS)) as (L1 & B1 & B2 & B3).
    rewrite print_scope. unfold print_sel, write_selector. rewrite L1. split; [apply Forall_app; split; [apply comb_no_comma|exact B2]|].
    intros st1 L. destruct (B3 st1) as (s2 & M2 & R2). { destruct L as [La Lb]. split; [congruence|rewrite P'; exact Lb]. }
    exists s2. split; [exact M2|]. pose proof (selector_of_loop _ _ _ _ B1 R2) as R3. intros pre W.
    assert (SP : forall x, skip (items cfg (space cfg ++ x)) = skip (items cfg x)) by (intros; rewrite items_app; apply skip_ws; exact WS).
    destruct RK as [<-|[<-|[<-|[<-|[]]]]].
    4:{ cbn [print_comb]. rewrite app_assoc, relative_of; [|exact B1|apply Forall_app; split; [exact W|repeat constructor]]. apply R3. apply Forall_app; split; [exact W|repeat constructor]. }
    all: unfold relative_selector; rewrite items_app, skip_ws by exact W; cbn [print_comb]; rewrite <- !app_assoc; cbn [app]; rewrite SP; cbn [items map skip]; fold (items cfg (space cfg ++ text true s)); rewrite R3 by exact WS; reflexivity. }
  unfold relative_selector in H. pose proof (skip_good _ _ G) as G1. destruct (skip l) as [|[t f] l1]; [discriminate|]. inversion G1 as [|? ? G2 G3]; subst.
  destruct t; try (apply SEL; exact H). destruct d; try (apply SEL; exact H); revert H; [apply (GO Child l1)|apply (GO NextSibling l1)|apply (GO LaterSibling l1)]; cbn; auto.
Qed.

(** *** Lists *)
Lemma split_good l : Forall good l -> Forall (Forall good) (split_commas l).
Proof.
  induction 1 as [|[t f] l G H IH]; [constructor; constructor|].
  assert (X : Forall (Forall good) (match split_commas l with s :: rest => ((t, f) :: s) :: rest | [] => [[(t, f)]] end)).
  { destruct IH; [constructor; [constructor; [exact G|constructor]|constructor]|]. constructor; [constructor; assumption|assumption]. }
  destruct t; cbn [split_commas]; try exact X. constructor; [constructor|exact IH].
Qed.
Lemma selectors_from one forgiving st parts : Forall (Forall good) parts -> forall acc st' x, selectors one forgiving st acc parts = (st', Some x) ->
  Forall (fun s => exists p stp, Forall good p /\ one st p = (stp, Some s)) x.
Proof.
  induction 1 as [|p parts Gp H IH]; intros acc st' x; cbn [selectors]; [intros E; injection E as <- <-; constructor|].
  destruct (one st p) as [s1 [s|]] eqn:O.
  - destruct (selectors one forgiving st _ parts) as [s2 [xs|]] eqn:R; [|discriminate]. intros E. injection E as <- <-. constructor; [eauto|]. eapply IH; eauto.
  - destruct forgiving; [|discriminate]. apply IH.
Qed.
Lemma split_one tk : no_comma tk -> split_commas (items cfg tk) = [items cfg tk].
Proof. induction 1 as [|t tk Ht H IH]; [reflexivity|]. cbn [items map split_commas]. fold (items cfg tk). rewrite IH. destruct t; auto; contradiction. Qed.
Lemma split_more tk r : no_comma tk -> split_commas (items cfg (tk ++ Comma :: r)) = items cfg tk :: split_commas (items cfg r).
Proof. induction 1 as [|t tk Ht H IH]; [reflexivity|]. cbn [app items map split_commas]. fold (items cfg (tk ++ Comma :: r)). rewrite IH. destruct t; auto; contradiction. Qed.
Lemma sep_cons {A} (s a b : list A) r : sep_by s (a :: b :: r) = a ++ s ++ sep_by s (b :: r).
Proof. reflexivity. Qed.
Lemma selectors_back one tk nm forgiving st1 x : (forall s, In s x -> no_comma (tk s) /\ back one (tk s) s (nm s) st1) -> x <> [] ->
  forall acc pre, ws pre -> (after_nesting st1 = true -> after_nesting acc = true) ->
  exists st2, selectors one forgiving st1 acc (split_commas (items cfg (pre ++ sep_by (comma cfg) (map tk x)))) = (st2, Some (map nm x)) /\ after_nesting st2 = after_nesting acc || existsb (existsb nests) x.
Proof.
  assert (WS : ws (space cfg)) by (unfold space; destruct (minify cfg); repeat constructor).
  induction x as [|s x IH]; intros H E acc pre W A; [contradiction|].
  destruct (H s (or_introl eq_refl)) as [NC (s2 & M2 & R2)].
  assert (NP : no_comma (pre ++ tk s)) by (apply Forall_app; split; [eapply Forall_impl; [|exact W]; intros ? ->; discriminate|exact NC]).
  assert (MM : after_nesting (set_nesting (after_nesting s2) acc) = after_nesting acc || existsb nests s).
  { cbn. rewrite M2. destruct (after_nesting acc); [reflexivity|]. destruct (after_nesting st1); [specialize (A eq_refl); discriminate A|reflexivity]. }
  destruct x as [|s' x].
  - cbn [map sep_by]. rewrite split_one by exact NP. cbn [selectors]. rewrite R2 by exact W. eexists. split; [reflexivity|]. rewrite MM. cbn. rewrite !orb_false_r. reflexivity.
  - cbn [map]. rewrite sep_cons, app_assoc. change (comma cfg) with (Comma :: space cfg) at 1. cbn [app]. rewrite split_more by exact NP. cbn [selectors]. rewrite R2 by exact W.
    destruct (IH (fun s0 I => H s0 (or_intror I)) ltac:(discriminate) (set_nesting (after_nesting s2) acc) (space cfg) WS) as (s3 & R3 & M3).
    { intros X. rewrite MM, (A X). reflexivity. }
    cbn [map] in R3. rewrite R3. eexists. split; [reflexivity|]. rewrite M3, MM, <- orb_assoc. reflexivity.
Qed.
(** The list that is printed is read back *)
Lemma list_back (rel forgiving : bool) st l st' x (tk : sel -> list tok) (nm : sel -> sel) :
  Forall good l -> selector_list cfg rel false forgiving st l = (st', Some x) ->
  (forall s p stp, In s x -> Forall good p -> (if rel then relative_selector cfg false else selector cfg false) st p = (stp, Some s) ->
     no_comma (tk s) /\ forall st1, le st1 st -> back (if rel then relative_selector cfg false else selector cfg false) (tk s) s (nm s) st1) ->
  (forgiving = false -> x <> []) ->
  forall st1, le st1 st -> forall pre, ws pre -> exists st2, selector_list cfg rel false forgiving st1 (items cfg (pre ++ sep_by (comma cfg) (map tk x))) = (st2, Some (map nm x)) /\ after_nesting st2 = after_nesting st1 || existsb (existsb nests) x.
Proof.
  intros G H K NE st1 L pre W. unfold selector_list in *. pose proof (selectors_from _ _ _ _ (split_good _ G) _ _ _ H) as FR.
  destruct x as [|s x].
  - destruct forgiving; [|exfalso; apply NE; reflexivity]. cbn [map sep_by]. rewrite app_nil_r. rewrite split_one by (eapply Forall_impl; [|exact W]; intros ? ->; discriminate).
    cbn [selectors].
    assert (O : (if rel then relative_selector cfg false else selector cfg false) st1 (items cfg pre) = (st1, None)).
    { pose proof (skip_ws cfg pre [] W) as SK. rewrite app_nil_r in SK. destruct rel; [unfold relative_selector; rewrite SK; reflexivity|]. unfold selector. cbn [selector_loop]. unfold compound. rewrite SK. reflexivity. }
    rewrite O. eexists. split; [reflexivity|]. cbn. destruct (after_nesting st1); reflexivity.
  - apply selectors_back; auto; [|discriminate]. intros s0 I. rewrite Forall_forall in FR. destruct (FR s0 I) as (p & stp & Gp & O). destruct (K s0 p stp I Gp O) as [K1 K2]. auto.
Qed.
End Back.
