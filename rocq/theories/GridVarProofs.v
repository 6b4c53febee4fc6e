(** * Values with [var()] are not read *)
From Coq Require Import List Bool QArith ZArith Ascii String Lia.
From Verif Require Import AnimModel GridModel GridSpec GridReadProofs GridTemplateProofs.
Import ListNotations.
Local Open Scope nat_scope.
Local Open Scope string_scope.
Local Open Scope list_scope.
Local Arguments is_kw kw s : simpl never.
Local Arguments reserved s : simpl never.
Local Arguments parse_string s : simpl never.

Lemma hv_cons t r : HasVar (t :: r) -> HasVar [t] \/ HasVar r.
Proof. intros H. inversion H; subst; [left; apply hv_here; assumption|left; apply hv_fun; assumption|left; apply hv_names; assumption|right; assumption]. Qed.
Lemma hv_nil : ~ HasVar [].
Proof. intros H. inversion H. Qed.
Lemma hv_app a b : HasVar (a ++ b) -> HasVar a \/ HasVar b.
Proof.
  induction a as [|t a IH]; [tauto|]. cbn [app]. intros H. inversion H; subst.
  - left. apply hv_here; assumption.
  - left. apply hv_fun; assumption.
  - left. apply hv_names; assumption.
  - destruct (IH H1) as [G|G]; [left; apply hv_later, G|right; exact G].
Qed.
Definition flat (t : tok) : Prop := match t with Fun _ _ | Names _ => False | _ => True end.
Lemma hv_flat t : flat t -> ~ HasVar [t].
Proof. intros F H. inversion H; subst; try contradiction. inversion H1. Qed.
Lemma is_kw_is kw s : is_kw kw s = true -> Is kw s.
Proof. unfold is_kw, Is. intros H. apply String.eqb_eq, H. Qed.
Lemma hv_fun_inv f kw l : is_kw kw f = true -> kw <> "var" -> HasVar [Fun f l] -> HasVar l.
Proof.
  intros K N H. inversion H; subst; [|assumption|inversion H1]. apply is_kw_is in K. unfold Is in *. congruence.
Qed.
Lemma word_flat kw t : word kw t = true -> ~ HasVar [t].
Proof. destruct t; try discriminate. intros _. apply hv_flat. exact I. Qed.

(** [rest] is left after tokens without [var()] *)
Definition Cl (l rest : list tok) : Prop := exists l1, l = l1 ++ rest /\ ~ HasVar l1.
Lemma cl_refl l : Cl l l.
Proof. exists []. split; [reflexivity|exact hv_nil]. Qed.
Lemma cl_cons t l rest : ~ HasVar [t] -> Cl l rest -> Cl (t :: l) rest.
Proof. intros N (l1 & -> & H). exists (t :: l1). split; [reflexivity|]. intros G. apply hv_cons in G. tauto. Qed.
Lemma cl_trans a b c : Cl a b -> Cl b c -> Cl a c.
Proof. intros (x & -> & H) (y & -> & G). exists (x ++ y). split; [apply List.app_assoc|]. intros F. apply hv_app in F. tauto. Qed.
Lemma cl_nil l : Cl l [] -> ~ HasVar l.
Proof. intros (x & -> & H). rewrite app_nil_r. exact H. Qed.

Lemma length_cl t l : parse_length t = Some l -> ~ HasVar [t].
Proof. destruct t; try discriminate; intros _; apply hv_flat; exact I. Qed.
Lemma breadth_cl fl t b : parse_breadth fl t = Some b -> ~ HasVar [t].
Proof. destruct t; try discriminate; intros _; apply hv_flat; exact I. Qed.
Lemma size_cl t s : parse_size t = Some s -> ~ HasVar [t].
Proof.
  unfold parse_size. destruct (parse_breadth true t) eqn:E; [intros _; eapply breadth_cl, E|]. destruct t as [| | | | | | | |f l|]; try discriminate.
  destruct (is_kw "minmax" f) eqn:K.
  - destruct l as [|a [|[] [|b []]]]; try discriminate. destruct (parse_breadth false a) eqn:Ea; [|discriminate]. destruct (parse_breadth true b) eqn:Eb; [|discriminate].
    intros _ H. apply (hv_fun_inv _ _ _ K) in H; [|discriminate]. apply hv_cons in H. destruct H as [H|H]; [exact (breadth_cl _ _ _ Ea H)|].
    apply hv_cons in H. destruct H as [H|H]; [revert H; apply hv_flat; exact I|exact (breadth_cl _ _ _ Eb H)].
  - destruct (is_kw "fit-content" f) eqn:K2; [|discriminate]. destruct l as [|a []]; try discriminate. destruct (parse_length a) eqn:Ea; [|discriminate].
    intros _ H. apply (hv_fun_inv _ _ _ K2) in H; [|discriminate]. eapply length_cl; eassumption.
Qed.
Lemma idents_cl l n : all_idents l = Some n -> ~ HasVar l.
Proof.
  revert n. induction l as [|t l IH]; intros n; [intros _; exact hv_nil|]. cbn. destruct t; try discriminate. cbn. destruct (reserved s); [discriminate|].
  destruct (all_idents l); [|discriminate]. intros _ H. apply hv_cons in H. destruct H as [H|H]; [revert H; apply hv_flat; exact I|eapply IH; eauto].
Qed.
Lemma names_cl t n : parse_names t = Some n -> ~ HasVar [t].
Proof. destruct t; try discriminate. intros E H. inversion H; subst; [eapply idents_cl; eassumption|inversion H1]. Qed.
Lemma try_names_cl l o r : try_names l = (o, r) -> Cl l r.
Proof.
  destruct l as [|t l]; cbn; [intros [= <- <-]; apply cl_refl|]. destruct (parse_names t) eqn:E; intros [= <- <-]; [|apply cl_refl].
  apply cl_cons; [eapply names_cl, E|apply cl_refl].
Qed.
Lemma loop_cl {A} (item : tok -> option A) (Hi : forall t a, item t = Some a -> ~ HasVar [t]) : forall k l, List.length l < k -> forall ns is rest, track_loop item l = (ns, is, rest) -> Cl l rest.
Proof.
  induction k as [|k IH]; intros l Hk ns is rest; [lia|]. destruct l as [|t r]; cbn [track_loop]; [intros [= _ _ <-]; apply cl_refl|]. cbn [List.length] in Hk.
  destruct (parse_names t) as [n|] eqn:En.
  - destruct r as [|u r]; [intros [= _ _ <-]; apply cl_cons; [eapply names_cl, En|apply cl_refl]|]. cbn [List.length] in Hk.
    destruct (item u) as [i|] eqn:Ei.
    + destruct (track_loop item r) as [[ns' is'] rest'] eqn:E. intros [= _ _ <-].
      apply cl_cons; [eapply names_cl, En|]. apply cl_cons; [eapply Hi, Ei|]. eapply IH; [|exact E]. lia.
    + intros [= _ _ <-]. apply cl_cons; [eapply names_cl, En|apply cl_refl].
  - destruct (item t) as [i|] eqn:Ei.
    + destruct (track_loop item r) as [[ns' is'] rest'] eqn:E. intros [= _ _ <-]. apply cl_cons; [eapply Hi, Ei|]. eapply IH; [|exact E]. lia.
    + intros [= _ _ <-]. apply cl_refl.
Qed.
Lemma item_cl t i : parse_item t = Some i -> ~ HasVar [t].
Proof.
  unfold parse_item. destruct (parse_size t) eqn:E; [intros _; eapply size_cl, E|]. unfold parse_repeat.
  destruct t as [| | | | | | | |f l|]; try discriminate. destruct l as [|c [|[] l]]; try discriminate.
  destruct (is_kw "repeat" f) eqn:K; [|discriminate]. destruct (parse_count c) eqn:Ec; [|discriminate].
  destruct (track_loop parse_size l) as [[ns ss] rest] eqn:El. destruct rest; [|discriminate].
  intros _ H. apply (hv_fun_inv _ _ _ K) in H; [|discriminate]. apply hv_cons in H. destruct H as [H|H].
  - revert H. apply hv_flat. destruct c; try discriminate; exact I.
  - apply hv_cons in H. destruct H as [H|H]; [revert H; apply hv_flat; exact I|]. revert H. apply cl_nil. eapply (loop_cl _ size_cl _ _ (le_n _)); eassumption.
Qed.
Lemma tracks_cl l t r : parse_tracks l = Some (t, r) -> Cl l r.
Proof.
  unfold parse_tracks. destruct (track_loop parse_item l) as [[ns is] rest] eqn:E. destruct is; [discriminate|]. intros [= _ <-].
  eapply (loop_cl _ item_cl _ _ (le_n _)); eassumption.
Qed.
Lemma sizing_cl l s r : parse_sizing l = Some (s, r) -> Cl l r.
Proof.
  unfold parse_sizing. destruct l as [|t l]; [discriminate|]. destruct (word "none" t) eqn:E.
  - intros [= _ <-]. apply cl_cons; [eapply word_flat, E|apply cl_refl].
  - destruct (parse_tracks (t :: l)) as [[x y]|] eqn:Et; [|discriminate]. intros [= _ <-]. eapply tracks_cl, Et.
Qed.
Lemma size_loop_cl l : forall s r, size_loop l = (s, r) -> Cl l r.
Proof.
  induction l as [|t l IH]; intros s r; cbn; [intros [= _ <-]; apply cl_refl|]. destruct (parse_size t) eqn:E; [|intros [= _ <-]; apply cl_refl].
  destruct (size_loop l) as [ss rest]. intros [= _ <-]. apply cl_cons; [eapply size_cl, E|eapply IH; reflexivity].
Qed.
Lemma sizes_cl l s r : parse_sizes l = (s, r) -> Cl l r.
Proof. unfold parse_sizes. destruct (size_loop l) as [ss rest] eqn:E. intros [= _ <-]. eapply size_loop_cl, E. Qed.
Lemma area_loop_cl l : forall f c n k r, area_loop f c l = Some (n, k, r) -> Cl l r.
Proof.
  induction l as [|t l IH]; intros f c n k r; cbn; [intros [= _ _ <-]; apply cl_refl|].
  destruct t; try (intros [= _ _ <-]; apply cl_refl). destruct (parse_string s); [|discriminate].
  assert (F : ~ HasVar [Str s]) by (apply hv_flat; exact I).
  destruct f; [|destruct (Nat.eqb _ _); [|discriminate]];
    (match goal with |- option_map _ ?x = _ -> _ => destruct x as [[[? ?] ?]|] eqn:E; [|discriminate] end; intros [= _ _ <-]; apply cl_cons; [exact F|eapply IH, E]).
Qed.
Lemma areas_cl l a r : parse_areas l = Some (a, r) -> Cl l r.
Proof.
  unfold parse_areas. destruct l as [|t l]; [intros [= _ <-]; apply cl_refl|]. destruct (word "none" t) eqn:E.
  - intros [= _ <-]. apply cl_cons; [eapply word_flat, E|apply cl_refl].
  - destruct (area_loop true 0 (t :: l)) as [[[? ?] ?]|] eqn:El; [|discriminate]. intros [= _ <-]. eapply area_loop_cl, El.
Qed.
Lemma template_loop_cl fuel : forall st l st' r, template_loop fuel st l = Some (st', r) -> Cl l r.
Proof.
  induction fuel as [|fuel IH]; intros st l st' r; [discriminate|]. cbn [template_loop].
  destruct (try_names l) as [fn l1] eqn:E1. pose proof (try_names_cl _ _ _ E1) as C1.
  destruct l1 as [|t l1]; [intros [= _ <-]; exact C1|]. destruct t; try (intros [= _ <-]; exact C1).
  destruct (parse_string s); [|discriminate]. destruct (negb _); [discriminate|].
  assert (F : ~ HasVar [Str s]) by (apply hv_flat; exact I).
  fold (size_step l1). destruct (size_step l1) as [sz l3] eqn:E3.
  assert (C3 : Cl l1 l3).
  { unfold size_step in E3. destruct l1 as [|t l1]; [injection E3 as _ <-; apply cl_refl|]. destruct (parse_size t) eqn:Es; injection E3 as _ <-; [|apply cl_refl].
    apply cl_cons; [eapply size_cl, Es|apply cl_refl]. }
  destruct (try_names l3) as [ln l4] eqn:E4. pose proof (try_names_cl _ _ _ E4) as C4.
  intros H. eapply cl_trans; [exact C1|]. apply cl_cons; [exact F|]. eapply cl_trans; [exact C3|]. eapply cl_trans; [exact C4|]. eapply IH, H.
Qed.
Lemma slash_flat : ~ HasVar [Slash].
Proof. apply hv_flat. exact I. Qed.
Lemma template_cl l t r : parse_template l = Some (t, r) -> Cl l r.
Proof.
  unfold parse_template. destruct l as [|u l]; [discriminate|]. destruct (word "none" u) eqn:E.
  - destruct l; [|discriminate]. intros [= _ <-]. apply cl_cons; [eapply word_flat, E|apply cl_refl].
  - destruct (template_loop _ _ _) as [[st rest]|] eqn:El; [|discriminate]. apply template_loop_cl in El. destruct (r_cells st) as [|c cs].
    + destruct (parse_sizing (u :: l)) as [[rows r1]|] eqn:Es; [|discriminate]. apply sizing_cl in Es. destruct r1 as [|[] r1]; try discriminate.
      destruct (parse_sizing r1) as [[cols r2]|] eqn:Es2; [|discriminate]. apply sizing_cl in Es2. intros [= _ <-].
      eapply cl_trans; [exact Es|]. apply cl_cons; [exact slash_flat|exact Es2].
    + destruct rest as [|[] rest]; try (intros [= _ <-]; exact El).
      destruct (parse_tracks rest) as [[x y]|] eqn:Et; [|discriminate]. apply tracks_cl in Et. destruct (explicit_tracks x); [|discriminate].
      intros [= _ <-]. eapply cl_trans; [exact El|]. apply cl_cons; [exact slash_flat|exact Et].
Qed.
Ltac wf := match goal with E : word _ _ = true |- _ => eapply word_flat, E end.
Lemma flow_cl l f r : parse_flow l = Some (f, r) -> Cl l r.
Proof.
  unfold parse_flow. destruct l as [|t l]; [discriminate|].
  destruct (word "row" t) eqn:E1; [|destruct (word "column" t) eqn:E2; [|destruct (word "dense" t) eqn:E3; [|discriminate]]].
  - destruct l as [|u l]; [|destruct (word "dense" u) eqn:E]; intros [= _ <-]; repeat (apply cl_cons; [solve [eapply word_flat; eassumption]|]); apply cl_refl.
  - destruct l as [|u l]; [|destruct (word "dense" u) eqn:E]; intros [= _ <-]; repeat (apply cl_cons; [solve [eapply word_flat; eassumption]|]); apply cl_refl.
  - destruct l as [|u l]; [discriminate|]. destruct (word "row" u) eqn:E; [|destruct (word "column" u) eqn:E'; [|discriminate]];
      intros [= _ <-]; repeat (apply cl_cons; [solve [eapply word_flat; eassumption]|]); apply cl_refl.
Qed.
Lemma auto_flow_cl c l f r : parse_auto_flow c l = Some (f, r) -> Cl l r.
Proof.
  unfold parse_auto_flow. destruct l as [|t l]; [discriminate|].
  destruct (word "auto-flow" t) eqn:E1; [|destruct (word "dense" t) eqn:E2; [|discriminate]].
  - destruct l as [|u l]; [|destruct (word "dense" u) eqn:E]; intros [= _ <-]; repeat (apply cl_cons; [solve [eapply word_flat; eassumption]|]); apply cl_refl.
  - destruct l as [|u l]; [discriminate|]. destruct (word "auto-flow" u) eqn:E; [|discriminate].
    intros [= _ <-]; repeat (apply cl_cons; [solve [eapply word_flat; eassumption]|]); apply cl_refl.
Qed.
Lemma grid_cl l g r : parse_grid l = Some (g, r) -> Cl l r.
Proof.
  unfold parse_grid. destruct (parse_template l) as [[t rest]|] eqn:Et; [intros [= _ <-]; eapply template_cl, Et|].
  destruct (parse_sizing l) as [[rows r1]|] eqn:Es.
  - apply sizing_cl in Es. destruct r1 as [|[] r1]; try discriminate.
    destruct (parse_auto_flow true r1) as [[f r2]|] eqn:Ef; [|discriminate]. apply auto_flow_cl in Ef. cbn [option_map].
    destruct (parse_sizes r2) as [ss r3] eqn:Ez. apply sizes_cl in Ez. intros [= _ <-].
    eapply cl_trans; [exact Es|]. apply cl_cons; [exact slash_flat|]. eapply cl_trans; eassumption.
  - destruct (parse_auto_flow false l) as [[f r1]|] eqn:Ef; [|discriminate]. apply auto_flow_cl in Ef.
    destruct (parse_sizes r1) as [ss r2] eqn:Ez. apply sizes_cl in Ez. destruct r2 as [|[] r3]; try discriminate.
    destruct (parse_sizing r3) as [[cols r4]|] eqn:Ec; [|discriminate]. apply sizing_cl in Ec. intros [= _ <-].
    eapply cl_trans; [exact Ef|]. eapply cl_trans; [exact Ez|]. apply cl_cons; [exact slash_flat|exact Ec].
Qed.
Lemma int_cl l o r : try_int l = (o, r) -> Cl l r.
Proof. destruct l as [|[] l]; cbn; intros [= _ <-]; try apply cl_refl. apply cl_cons; [apply hv_flat; exact I|apply cl_refl]. Qed.
Lemma ident_cl l o r : try_ident l = (o, r) -> Cl l r.
Proof.
  destruct l as [|t l]; cbn; [intros [= _ <-]; apply cl_refl|]. destruct (custom_ident t) eqn:E; intros [= _ <-]; [|apply cl_refl].
  apply cl_cons; [|apply cl_refl]. apply hv_flat. destruct t; try discriminate; exact I.
Qed.
Lemma nonzero_inv {A} z (a b : A) : nonzero z a = Some b -> a = b.
Proof. unfold nonzero. destruct (Z.eqb z 0); [discriminate|congruence]. Qed.
Lemma line_cl l x r : parse_line l = Some (x, r) -> Cl l r.
Proof.
  unfold parse_line. destruct l as [|t l]; [discriminate|].
  destruct (word "auto" t) eqn:E1; [intros [= _ <-]; apply cl_cons; [wf|apply cl_refl]|]. destruct (word "span" t) eqn:E2.
  - intros H. apply cl_cons; [wf|]. revert H. destruct (try_int l) as [[z|] r1] eqn:Ei.
    + destruct (try_ident r1) as [n r2] eqn:En. intros H. apply nonzero_inv in H. injection H as _ <-.
      eapply cl_trans; [eapply int_cl, Ei|eapply ident_cl, En].
    + destruct (try_ident l) as [[n|] r2] eqn:En; [|discriminate]. destruct (try_int r2) as [z r3] eqn:Ez. intros H. apply nonzero_inv in H. injection H as _ <-.
      eapply cl_trans; [eapply ident_cl, En|eapply int_cl, Ez].
  - destruct (try_int (t :: l)) as [[z|] r1] eqn:Ei.
    + destruct (try_ident r1) as [n r2] eqn:En. intros H. apply nonzero_inv in H. injection H as _ <-.
      eapply cl_trans; [eapply int_cl, Ei|eapply ident_cl, En].
    + destruct (try_ident (t :: l)) as [[n|] r2] eqn:En; [|discriminate]. destruct (try_int r2) as [[z|] r3] eqn:Ez.
      * intros H. apply nonzero_inv in H. injection H as _ <-. eapply cl_trans; [eapply ident_cl, En|eapply int_cl, Ez].
      * intros [= _ <-]. eapply ident_cl, En.
Qed.
Lemma pair_cl l x r : parse_pair l = Some (x, r) -> Cl l r.
Proof.
  unfold parse_pair. destruct (parse_line l) as [[a r1]|] eqn:E; [|discriminate]. apply line_cl in E.
  destruct r1 as [|[] r1]; try (intros [= _ <-]; exact E).
  destruct (parse_line r1) as [[b r2]|] eqn:E2; [|discriminate]. apply line_cl in E2. intros [= _ <-].
  eapply cl_trans; [exact E|]. apply cl_cons; [exact slash_flat|exact E2].
Qed.
Lemma area_cl l x r : parse_area l = Some (x, r) -> Cl l r.
Proof.
  unfold parse_area. destruct (parse_line l) as [[a r1]|] eqn:E; [|discriminate]. apply line_cl in E.
  destruct r1 as [|[] r1]; try (intros [= _ <-]; exact E).
  destruct (parse_line r1) as [[b r2]|] eqn:E2; [|discriminate]. apply line_cl in E2.
  assert (C2 : Cl l r2) by (eapply cl_trans; [exact E|]; apply cl_cons; [exact slash_flat|exact E2]).
  destruct r2 as [|[] r2]; try (intros [= _ <-]; exact C2).
  destruct (parse_line r2) as [[c r3]|] eqn:E3; [|discriminate]. apply line_cl in E3.
  assert (C3 : Cl l r3) by (eapply cl_trans; [exact C2|]; apply cl_cons; [exact slash_flat|exact E3]).
  destruct r3 as [|[] r3]; try (intros [= _ <-]; exact C3).
  destruct (parse_line r3) as [[d r4]|] eqn:E4; [|discriminate]. apply line_cl in E4. intros [= _ <-].
  eapply cl_trans; [exact C3|]. apply cl_cons; [exact slash_flat|exact E4].
Qed.
Lemma whole_cl {A} (o : option (A * list tok)) l : (forall a r, o = Some (a, r) -> Cl l r) -> HasVar l -> whole o = None.
Proof.
  intros H V. destruct o as [[a [|t r]]|]; [|reflexivity|reflexivity]. destruct (cl_nil l); [|exact V]. eapply H. reflexivity.
Qed.
Theorem var_raw p l : HasVar l -> parse_decl p l = DRaw p l.
Proof.
  intros V.
  assert (S : whole (Some (parse_sizes l)) = None).
  { destruct (parse_sizes l) as [s r] eqn:E. apply (whole_cl _ l); [|exact V]. intros a r' [= <- <-]. eapply sizes_cl, E. }
  unfold parse_decl. destruct p; rewrite ?S; try reflexivity; (erewrite whole_cl; [reflexivity| |exact V]); intros a r E;
  first [exact (sizing_cl _ _ _ E) | exact (areas_cl _ _ _ E) | exact (flow_cl _ _ _ E) | exact (template_cl _ _ _ E)
        | exact (grid_cl _ _ _ E) | exact (line_cl _ _ _ E) | exact (pair_cl _ _ _ E) | exact (area_cl _ _ _ E)].
Qed.
