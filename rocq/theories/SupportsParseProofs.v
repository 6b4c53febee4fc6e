(** * Parsing [@supports] conditions: definedness and meaning *)
From Coq Require Import List Bool Arith Lia String Ascii.
From Verif Require Import MediaModel VendorPrefixModel SupportsModel SupportsSpec SupportsProofs.
Import ListNotations.
Local Open Scope string_scope.
Local Open Scope list_scope.

Definition kw (o : sop) : string := match o with OpAnd => "and" | OpOr => "or" end.
Definition op (o : sop) : bool -> bool -> bool := match o with OpAnd => andb | OpOr => orb end.

Lemma sop_of_kw s o : sop_of s = Some o <-> ieq s (kw o) = true.
Proof.
  unfold sop_of, ieq. destruct o; cbn [kw].
  - destruct (String.eqb_spec (lower s) (lower "and")) as [E|E]; [tauto|].
    destruct (String.eqb (lower s) (lower "or")); split; discriminate.
  - destruct (String.eqb_spec (lower s) (lower "and")) as [E|E].
    + rewrite E. split; discriminate.
    + destruct (String.eqb (lower s) (lower "or")); split; congruence.
Qed.
Lemma sop_of_none s : sop_of s = None <-> forall o, ieq s (kw o) = false.
Proof.
  split.
  - intros H o. destruct (ieq s (kw o)) eqn:E; [|reflexivity]. apply sop_of_kw in E. congruence.
  - intros H. destruct (sop_of s) as [o|] eqn:E; [|reflexivity]. apply sop_of_kw in E. rewrite H in E. discriminate.
Qed.
Lemma kw_other s o o' : sop_of s = Some o -> sop_eqb o' o = false -> ieq s (kw o') = false.
Proof.
  intros H E. destruct (ieq s (kw o')) eqn:K; [|reflexivity]. apply sop_of_kw in K.
  rewrite H in K. injection K as <-. destruct o; discriminate.
Qed.
Lemma sop_eqb_refl o : sop_eqb o o = true. Proof. destruct o; reflexivity. Qed.

Section Parse.
Variable table : list entry.
Notation parsed := (fun x => (x, parse_in_parens table x)).

Lemma operand_no_ident s : parse_in_parens table (CIdent s) = None. Proof. reflexivity. Qed.

(** With the operator of the head already known, the loop behaves alike. *)
Lemma loop_expect first conds seen s y rest o : sop_of s = Some o ->
  parse_loop first None conds seen ((CIdent s, y) :: rest) = parse_loop first (Some o) conds seen ((CIdent s, y) :: rest).
Proof. intros H. cbn [parse_loop]. rewrite H, sop_eqb_refl. reflexivity. Qed.

Section Defined.
Variable B : browser.
Notation meant := (fun x => (x, in_parens B x)).
Definition both_defined (t : cv) : Prop := parse_in_parens table t = None <-> in_parens B t = None.

Lemma loop_defined n : forall l first conds seen acc o f, List.length l <= n -> Forall both_defined l ->
  (snd (parse_loop first (Some o) conds seen (map parsed l)) = [] <->
   chain (kw o) f acc (map meant l) <> None).
Proof.
  induction n as [|n IH]; intros l first conds seen acc o f Hn Hl.
  - destruct l; [|cbn in Hn; lia]. cbn. split; [discriminate | reflexivity].
  - destruct l as [|x l]; [cbn; split; [discriminate | reflexivity]|].
    cbn [map]. destruct x as [s| | |s|g b|b|g b]; try (cbn [parse_loop chain snd]; split; [discriminate | intros H; exfalso; apply H; reflexivity]).
    cbn [parse_loop]. destruct (sop_of s) as [o'|] eqn:Es.
    + destruct (sop_eqb o o') eqn:Eo; cbn [negb].
      * assert (o = o') as <- by (destruct o, o'; discriminate || reflexivity). clear Eo.
        destruct l as [|y r]; [cbn; split; [discriminate | intros H; exfalso; apply H; reflexivity]|].
        inversion Hl as [|? ? _ Hl']; subst. inversion Hl' as [|? ? Hy Hr]; subst. cbn [map].
        unfold both_defined in Hy. destruct (parse_in_parens table y) as [c|] eqn:Ey.
        -- destruct (in_parens B y) as [b|] eqn:Em; [|destruct Hy as [_ Hy]; specialize (Hy eq_refl); discriminate].
           apply sop_of_kw in Es.
           destruct (match conds with [] => start_operands first | _ :: _ => (conds, seen) end) as [conds0 seen0].
           destruct (add_operand c conds0 seen0) as [conds1 seen1].
           cbn [chain]. rewrite Es. apply IH; [cbn in Hn; lia | exact Hr].
        -- destruct Hy as [Hy _]. rewrite (Hy eq_refl). cbn [snd chain].
           split; [discriminate | intros H; exfalso; apply H; reflexivity].
      * cbn [snd]. split; [discriminate|]. intros H. exfalso. apply H.
        destruct l as [|y r]; [reflexivity|]. cbn [map chain]. rewrite (kw_other _ _ _ Es Eo).
        destruct (in_parens B y); reflexivity.
    + cbn [snd]. split; [discriminate|]. intros H. exfalso. apply H.
      destruct l as [|y r]; [reflexivity|]. cbn [map chain]. rewrite sop_of_none in Es. rewrite Es.
      destruct (in_parens B y); reflexivity.
Qed.

Lemma loop_none_defined l first b : Forall both_defined l ->
  (snd (parse_loop first None [] [] (map parsed l)) = [] <->
   chain "and" andb b (map meant l) <> None \/ chain "or" orb b (map meant l) <> None).
Proof.
  intros Hl. destruct l as [|x r]; [cbn; split; [left; discriminate | reflexivity]|].
  destruct x as [s| | |s|g y|y|g y]; try (cbn [map parse_loop chain snd]; split; [discriminate | intros [H|H]; exfalso; apply H; reflexivity]).
  destruct (sop_of s) as [o|] eqn:Es.
  - cbn [map]. rewrite (loop_expect _ _ _ _ _ _ o Es).
    change ((CIdent s, parse_in_parens table (CIdent s)) :: map parsed r) with (map parsed (CIdent s :: r)).
    change ((CIdent s, in_parens B (CIdent s)) :: map meant r) with (map meant (CIdent s :: r)).
    rewrite (loop_defined _ _ first [] [] b o (op o) (Nat.le_refl _) Hl).
    assert (N : forall o', o' <> o -> chain (kw o') (op o') b (map meant (CIdent s :: r)) = None).
    { intros o' Ho. cbn [map chain]. destruct r as [|y r]; [reflexivity|]. cbn [map].
      destruct (in_parens B y); [|reflexivity]. rewrite (kw_other s o o' Es); [reflexivity|].
      destruct o, o'; reflexivity || congruence. }
    destruct o; cbn [kw op].
    + pose proof (N OpOr ltac:(discriminate)) as E. cbn [kw op] in E. rewrite E. tauto.
    + pose proof (N OpAnd ltac:(discriminate)) as E. cbn [kw op] in E. rewrite E. tauto.
  - cbn [map parse_loop]. rewrite Es. cbn [snd]. split; [discriminate|].
    rewrite sop_of_none in Es.
    intros [H|H]; exfalso; apply H; destruct r as [|y r]; try reflexivity; cbn [map chain];
      [pose proof (Es OpAnd) as E | pose proof (Es OpOr) as E]; cbn [kw] in E; rewrite E;
      destruct (in_parens B y); reflexivity.
Qed.

(** The first component value of a condition that is not a negation is an operand. *)
Lemma operand_cases t c : parse_in_parens table t = Some c ->
  (exists f b, t = CFun f b) \/ (exists b, t = CParen b).
Proof. destruct t; try discriminate; intros _; eauto. Qed.

Definition finish (first : scond) (e : option sop) (conds : list scond) : scond :=
  match conds with
  | [c] => c
  | _ => match e with Some OpAnd => SAnd conds | Some OpOr => SOr conds | None => first end
  end.

(** [parse_scond] either reads a negation or an operand followed by the loop. *)
Lemma parse_scond_cases l r :
  parse_scond (map parsed l) = r ->
  (exists s t c m, l = CIdent s :: t :: m /\ ieq s "not" = true /\ parse_in_parens table t = Some c
      /\ r = Some (SNot c, map parsed m))
  \/ (exists t c m, l = t :: m /\ parse_in_parens table t = Some c /\
      r = (let '(e, conds, rest) := parse_loop c None [] [] (map parsed m) in
           Some (finish c e conds, rest)))
  \/ (r = None /\ condition (map meant l) = None \/ exists t m, l = t :: m /\ r = None /\
       parse_in_parens table t = None /\ (forall s, t = CIdent s -> ieq s "not" = true ->
          match m with y :: _ => parse_in_parens table y = None | [] => True end)).
Proof.
  destruct l as [|t m].
  - intros <-. right. right. left. split; reflexivity.
  - destruct (parse_in_parens table t) as [c|] eqn:Et.
    + intros <-. right. left. exists t, c, m. split; [reflexivity|]. split; [exact Et|].
      destruct (operand_cases t c Et) as [[f [b ->]]|[b ->]]; cbn [map]; unfold parse_scond; rewrite Et; reflexivity.
    + destruct t as [s| | |s|g b|b|g b].
      2-7: intros <-; right; right; right; eexists _, m; split; [reflexivity|]; split; [cbn [map]; rewrite Et; reflexivity|];
        split; [exact Et | intros ? ?; discriminate].
      destruct (ieq s "not") eqn:En.
      * destruct m as [|y m].
        { intros <-. right. right. right. exists (CIdent s), []. split; [reflexivity|].
          split; [cbn [map]; unfold parse_scond; rewrite En; reflexivity|]. split; [reflexivity | auto]. }
        destruct (parse_in_parens table y) as [c|] eqn:Ey.
        { intros <-. left. exists s, y, c, m. repeat split; try assumption.
          cbn [map]. unfold parse_scond. rewrite En, Ey. reflexivity. }
        intros <-. right. right. right. exists (CIdent s), (y :: m). split; [reflexivity|].
        split; [cbn [map]; unfold parse_scond; rewrite En, Ey; reflexivity|]. split; [reflexivity | auto].
      * intros <-. right. right. right. exists (CIdent s), m. split; [reflexivity|].
        split; [cbn [map]; unfold parse_scond; rewrite En; reflexivity|]. split; [reflexivity|].
        intros s' E. injection E as <-. congruence.
Qed.

Lemma condition_ident s y r : condition ((CIdent s, None) :: y :: r) =
  match r, snd y with
  | [], Some b => if ieq s "not" then Some (negb b) else None
  | _, _ => None
  end.
Proof. destruct y as [y [b|]], r; reflexivity. Qed.

Lemma cond_defined l : Forall both_defined l ->
  ((exists c, parse_scond (map parsed l) = Some (c, [])) <-> condition (map meant l) <> None).
Proof.
  intros Hl. destruct (parse_scond_cases l _ eq_refl) as [H|[H|[[H1 H2]|H]]].
  - destruct H as [s [t [c [m [-> [Hs [Ht Hr]]]]]]]. rewrite Hr.
    inversion Hl as [|? ? _ Hl']; subst. inversion Hl' as [|? ? Hy _]; subst. unfold both_defined in Hy.
    cbn [map]. change (in_parens B (CIdent s)) with (@None bool). rewrite condition_ident. cbn [snd].
    destruct (in_parens B t) as [b|] eqn:E; [|destruct Hy as [_ Hy]; rewrite (Hy eq_refl) in Ht; discriminate].
    rewrite Hs. destruct m as [|z m].
    + split; [discriminate | eauto].
    + split; [intros [d E']; discriminate | intros E'; exfalso; apply E'; reflexivity].
  - destruct H as [t [c [m [-> [Ht Hr]]]]]. rewrite Hr. inversion Hl as [|? ? Hx Hm]; subst.
    unfold both_defined in Hx. destruct (in_parens B t) as [b|] eqn:E; [|destruct Hx as [_ Hx]; rewrite (Hx eq_refl) in Ht; discriminate].
    cbn [map]. rewrite E, (condition_operand B _ _ _ E).
    pose proof (loop_none_defined m c b Hm) as D.
    destruct (parse_loop c None [] [] (map parsed m)) as [[e conds] rest]. cbn [snd] in D.
    split.
    + intros [d Ed]. injection Ed as _ Er. destruct D as [D _]. specialize (D Er).
      destruct (chain "and" andb b (map meant m)); [discriminate|]. destruct D as [D|D]; [congruence | exact D].
    + intros Hc. destruct D as [_ D]. rewrite D; [eauto|].
      destruct (chain "and" andb b (map meant m)); [left; discriminate | right; exact Hc].
  - rewrite H1, H2. split; [intros [d E]; discriminate | congruence].
  - destruct H as [t [m [-> [Hr [Ht Hn]]]]]. rewrite Hr. split; [intros [d E]; discriminate|].
    intros Hc. exfalso. apply Hc. inversion Hl as [|? ? Hx Hm]; subst. unfold both_defined in Hx.
    destruct Hx as [Hx _]. cbn [map]. rewrite (Hx Ht). destruct t as [s| | |s|g b|b|g b];
      try (destruct m; reflexivity).
    destruct m as [|y m]; [reflexivity|]. cbn [map]. rewrite condition_ident. cbn [snd].
    specialize (Hn s eq_refl).
    destruct m as [|z m]; [|reflexivity]. cbn [map]. inversion Hm as [|? ? Hy _]; subst. unfold both_defined in Hy.
    destruct (ieq s "not"); [|destruct (in_parens B y); reflexivity].
    destruct Hy as [Hy _]. rewrite (Hy (Hn eq_refl)). reflexivity.
Qed.

(** A list that parses with something left over is not a declaration. *)
Lemma leftover_no_decl l c x r : parse_scond (map parsed l) = Some (c, x :: r) -> declaration l = None.
Proof.
  intros H. destruct (parse_scond_cases l _ eq_refl) as [K|[K|[[K1 K2]|K]]].
  - destruct K as [s [t [d [m [-> [_ [Ht _]]]]]]]. destruct t; try discriminate Ht; reflexivity.
  - destruct K as [t [d [m [-> [Ht _]]]]]. destruct t; try discriminate Ht; reflexivity.
  - congruence.
  - destruct K as [t [m [-> [Hr _]]]]. congruence.
Qed.

Lemma parse_sdecl_declaration l : parse_sdecl table l =
  match declaration l with Some (n, v) => Some (SDecl (pid_from table n) v) | None => None end.
Proof.
  destruct l as [|x l]; [reflexivity|]. destruct x; try reflexivity. destruct l as [|y l]; [reflexivity|].
  destruct y; try reflexivity. unfold parse_sdecl, declaration. destruct (no_error l); reflexivity.
Qed.

(** The four outcomes of [parse_in_parens] on a block, with the corresponding meaning *)
Lemma paren_cases body : Forall both_defined body ->
  (exists c, parse_scond (map parsed body) = Some (c, []) /\ parse_in_parens table (CParen body) = Some c
     /\ condition (map meant body) <> None /\ in_parens B (CParen body) = condition (map meant body))
  \/ (condition (map meant body) = None /\ (forall c, parse_scond (map parsed body) <> Some (c, [])) /\
      ((exists n v, declaration body = Some (n, v)
          /\ parse_in_parens table (CParen body) = Some (SDecl (pid_from table n) v)
          /\ in_parens B (CParen body) = Some (b_decl B (canonical_name n) v))
       \/ (declaration body = None /\ no_error body = true
          /\ parse_in_parens table (CParen body) = Some (SUnknown (CParen body))
          /\ in_parens B (CParen body) = Some (b_unknown B (CParen body)))
       \/ (declaration body = None /\ no_error body = false
          /\ parse_in_parens table (CParen body) = None /\ in_parens B (CParen body) = None))).
Proof.
  intros Hb. pose proof (cond_defined body Hb) as D. cbn [parse_in_parens in_parens].
  destruct (condition (map meant body)) as [b|] eqn:Ec.
  - destruct D as [_ D]. destruct D as [c D]; [discriminate|]. left. exists c. rewrite D.
    repeat split; discriminate.
  - right. split; [reflexivity|].
    assert (N : forall c, parse_scond (map parsed body) <> Some (c, [])).
    { intros c E. destruct D as [D _]. apply D; eauto. }
    split; [exact N|]. rewrite parse_sdecl_declaration.
    destruct (parse_scond (map parsed body)) as [[c [|x r]]|] eqn:Ep.
    + exfalso. eapply N. reflexivity.
    + rewrite (leftover_no_decl _ _ _ _ Ep). right.
      destruct (no_error body) eqn:E; [left | right]; repeat split.
    + destruct (declaration body) as [[n v]|] eqn:Ed.
      * left. exists n, v. repeat split.
      * right. destruct (no_error body) eqn:E; [left | right]; repeat split.
Qed.

Lemma defined t : both_defined t.
Proof.
  induction t as [s| | |s|f b IH|b IH|o b IH] using cv_rect'; try (unfold both_defined; cbn; tauto).
  - unfold both_defined. cbn [parse_in_parens in_parens]. destruct (no_error b); rewrite ?andb_true_r, ?andb_false_r;
      [|tauto]. destruct (ieq f "selector"); split; discriminate.
  - unfold both_defined. destruct (paren_cases b IH) as [[c [H1 [-> [H3 ->]]]]|[H0 [H0' [[n [v [H1 [-> ->]]]]|[[H1 [H2 [-> ->]]]|[H1 [H2 [-> ->]]]]]]]].
    + split; [discriminate | congruence].
    + split; discriminate.
    + split; discriminate.
    + tauto.
Qed.
Lemma all_defined l : Forall both_defined l.
Proof. apply Forall_forall. intros t _. apply defined. Qed.
End Defined.
End Parse.

(** ** Parsed conditions denote a text *)
Definition blank : browser := Browser (fun _ _ => false) (fun _ => false) (fun _ => false).

Section Printable.
Variable table : list entry.
Notation parsed := (fun x => (x, parse_in_parens table x)).

Lemma update_at_forall (Q : scond -> Prop) f i l : Forall Q l -> (forall x, Q x -> Q (f x)) ->
  Forall Q (update_at i f l).
Proof.
  intros H Hf. revert i. induction H as [|x r Hx Hr IH]; intros i; [destruct i; constructor|].
  destruct i; cbn [update_at]; constructor; auto.
Qed.
Lemma update_at_length f i l : List.length (update_at i f l) = List.length l.
Proof. revert i. induction l as [|x r IH]; intros [|i]; cbn; auto. Qed.

(** A property of conditions that declarations keep when their prefixes change *)
Lemma loop_all (Q : scond -> Prop) :
  (forall p q v, Q (SDecl p v) -> Q (SDecl (pid_with_prefix p q) v)) ->
  (forall p q v, Q (SDecl p v) -> Q (SDecl (pid_add_prefix p q) v)) ->
  forall n l first e conds seen, List.length l <= n ->
  (forall t c, In t l -> parse_in_parens table t = Some c -> Q c) -> Q first -> Forall Q conds ->
  let '(e', conds', rest) := parse_loop first e conds seen (map parsed l) in
  Forall Q conds' /\ (rest = [] -> conds' = [] -> conds = [] /\ l = []).
Proof.
  intros Q1 Q2. induction n as [|n IH]; intros l first e conds seen Hn Hl Hf Hc.
  - destruct l; [|cbn in Hn; lia]. cbn. auto.
  - destruct l as [|x l]; [cbn; auto|]. cbn [map].
    destruct x as [s| | |s|g b|b|g b]; try (cbn [parse_loop]; split; [exact Hc | intros; discriminate]).
    cbn [parse_loop]. destruct (sop_of s) as [o|] eqn:Es; [|split; [exact Hc | intros; discriminate]].
    destruct (match e with Some e0 => negb (sop_eqb e0 o) | None => false end);
      [split; [exact Hc | intros; discriminate]|].
    destruct l as [|y r]; [split; [exact Hc | intros; discriminate]|]. cbn [map].
    destruct (parse_in_parens table y) as [c|] eqn:Ey; [|split; [exact Hc | intros; discriminate]].
    assert (Qc : Q c) by (apply (Hl y); [right; left; reflexivity | exact Ey]).
    destruct (match conds with [] => start_operands first | _ :: _ => (conds, seen) end) as [conds0 seen0] eqn:E0.
    assert (Q0 : Forall Q conds0).
    { destruct conds; [unfold start_operands in E0|]; injection E0 as <- _; auto. }
    assert (N0 : conds0 <> []).
    { destruct conds; [unfold start_operands in E0|]; injection E0 as <- _; discriminate. }
    destruct (add_operand c conds0 seen0) as [conds1 seen1] eqn:E1.
    assert (K : Forall Q conds1 /\ conds1 <> []).
    { unfold add_operand in E1. destruct c as [c|m|m|p v|s'|t].
      4:{ destruct (seen_get _ seen0) as [i|]; injection E1 as <- _.
          - split; [apply update_at_forall; [exact Q0|]; intros [d|m|m|q w|s'|t'] Hx; auto|].
            intros E. apply (f_equal (@List.length _)) in E. rewrite update_at_length in E.
            destruct conds0; [congruence | discriminate].
          - split; [apply Forall_app; split; [exact Q0 | constructor; auto]|]. destruct conds0; discriminate. }
      all: injection E1 as <- _; (split; [apply Forall_app; split; [exact Q0 | constructor; auto] | destruct conds0; discriminate]). }
    destruct K as [K1 K2].
    specialize (IH r first (Some o) conds1 seen1).
    destruct (parse_loop first (Some o) conds1 seen1 (map parsed r)) as [[e' conds'] rest].
    destruct IH as [I1 I2]; [cbn in Hn; lia | intros t d Ht; apply Hl; right; right; exact Ht | exact Hf | exact K1|].
    split; [exact I1|]. intros Er Ec. destruct (I2 Er Ec). congruence.
Qed.

Lemma parse_scond_all (Q : scond -> Prop) :
  (forall p q v, Q (SDecl p v) -> Q (SDecl (pid_with_prefix p q) v)) ->
  (forall p q v, Q (SDecl p v) -> Q (SDecl (pid_add_prefix p q) v)) ->
  (forall c, Q c -> Q (SNot c)) ->
  (forall l, l <> [] -> Forall Q l -> Q (SAnd l) /\ Q (SOr l)) ->
  forall l c, (forall t d, In t l -> parse_in_parens table t = Some d -> Q d) ->
  parse_scond (map parsed l) = Some (c, []) -> Q c.
Proof.
  intros Q1 Q2 Q3 Q4 l c Hl Hp.
  destruct (parse_scond_cases table blank l _ Hp) as [H|[H|[[H1 _]|H]]].
  - destruct H as [s [t [d [m [-> [_ [Ht Hr]]]]]]]. injection Hr as -> _. apply Q3. apply (Hl t d); [right; left; reflexivity | exact Ht].
  - destruct H as [t [d [m [-> [Ht Hr]]]]].
    pose proof (loop_all Q Q1 Q2 _ m d None [] [] (Nat.le_refl _)) as L.
    destruct (parse_loop d None [] [] (map parsed m)) as [[e conds] rest] eqn:El.
    injection Hr as -> <-. destruct L as [L1 L2].
    + intros t' d' Ht'. apply Hl. right. exact Ht'.
    + apply (Hl t d); [left; reflexivity | exact Ht].
    + constructor.
    + unfold finish. destruct conds as [|c1 [|c2 cs]].
      * destruct (L2 eq_refl eq_refl) as [_ ->]. cbn [map parse_loop] in El. injection El as <-.
        apply (Hl t d); [left; reflexivity | exact Ht].
      * inversion L1; assumption.
      * destruct (Q4 (c1 :: c2 :: cs)) as [A1 A2]; [discriminate | exact L1|].
        destruct e as [[]|]; [exact A1 | exact A2 | apply (Hl t d); [left; reflexivity | exact Ht]].
  - discriminate.
  - destruct H as [t [m [_ [Hr _]]]]. discriminate.
Qed.

Lemma parse_printable t c : parse_in_parens table t = Some c -> printable c.
Proof.
  revert c. induction t as [s| | |s|f b IH|b IH|o b IH] using cv_rect'; intros c H; try discriminate.
  - cbn [parse_in_parens] in H. destruct (no_error b) eqn:E; rewrite ?andb_true_r, ?andb_false_r in H; [|discriminate].
    destruct (ieq f "selector") eqn:F; injection H as <-; cbn [printable]; [exact E|].
    intros B. cbn [in_parens]. rewrite E, F. reflexivity.
  - destruct (paren_cases table blank b (all_defined table blank b)) as [[d [H1 [H2 _]]]|[H0 [H0' [[n [v [H1 [H2 _]]]]|[[H1 [H3 [H2 _]]]|[H1 [H3 [H2 _]]]]]]]];
      rewrite H2 in H; injection H as <- || discriminate H.
    + apply (parse_scond_all printable) with (l := b); auto.
      * intros l Hl Hf. rewrite printable_and, printable_or. auto.
      * intros t d' Ht. rewrite Forall_forall in IH. apply IH. exact Ht.
    + cbn [printable]. unfold declaration in H1. destruct b as [|[] [|[] b]]; try discriminate.
      destruct (no_error b) eqn:E; [|discriminate]. injection H1 as _ <-. exact E.
    + cbn [printable]. intros B.
      destruct (paren_cases table B b (all_defined table B b)) as [[d [K1 _]]|[K0 [K0' [[n [v [K1 _]]]|[[K1 [K3 [K2 K4]]]|[K1 [K3 _]]]]]]].
      * exfalso. apply (H0' d K1). * congruence. * exact K4. * congruence.
Qed.

Lemma parse_supports_printable l c : parse_supports table l = Some c -> printable c.
Proof.
  unfold parse_supports. intros H.
  destruct (parse_scond (map parsed l)) as [[d [|x r]]|] eqn:E; try discriminate. injection H as ->.
  apply (parse_scond_all printable) with (l := l); auto.
  - intros m Hm Hf. rewrite printable_and, printable_or. auto.
  - intros t d _. apply parse_printable.
Qed.
End Printable.

Lemma text_defined table B l : (exists c, parse_supports table l = Some c) <-> (exists b, text_holds B l = Some b).
Proof.
  pose proof (cond_defined table B l (all_defined table B l)) as D. unfold parse_supports, text_holds.
  destruct (parse_scond (map (fun x => (x, parse_in_parens table x)) l)) as [[c [|x r]]|].
  - destruct D as [D _]. destruct (condition _) eqn:E; [split; eauto|]. exfalso. apply D; eauto.
  - destruct D as [_ D]. destruct (condition _) as [b|] eqn:E; [|split; intros [? ?]; discriminate].
    destruct D as [d D]; [discriminate|]. discriminate.
  - destruct D as [_ D]. destruct (condition _) as [b|] eqn:E; [|split; intros [? ?]; discriminate].
    destruct D as [d D]; [discriminate|]. discriminate.
Qed.
