(** * Proofs about [@supports] conditions *)
From Coq Require Import List Bool Arith Lia String Ascii.
From Verif Require Import MediaModel VendorPrefixModel SupportsModel SupportsSpec.
Import ListNotations.
Local Open Scope string_scope.
Local Open Scope list_scope.

(** ** Induction principles *)
Lemma cv_rect' (P : cv -> Prop) :
  (forall s, P (CIdent s)) -> P CColon -> P CBad -> (forall s, P (COther s)) ->
  (forall f b, Forall P b -> P (CFun f b)) -> (forall b, Forall P b -> P (CParen b)) ->
  (forall o b, Forall P b -> P (CBlock o b)) -> forall t, P t.
Proof.
  intros h1 h2 h3 h4 h5 h6 h7. fix IH 1. intros [s| | |s|f b|b|o b].
  - apply h1. - exact h2. - exact h3. - apply h4.
  - apply h5. induction b as [|x r IHr]; constructor; [apply IH | exact IHr].
  - apply h6. induction b as [|x r IHr]; constructor; [apply IH | exact IHr].
  - apply h7. induction b as [|x r IHr]; constructor; [apply IH | exact IHr].
Qed.

Lemma scond_rect' (P : scond -> Prop) :
  (forall c, P c -> P (SNot c)) -> (forall l, Forall P l -> P (SAnd l)) ->
  (forall l, Forall P l -> P (SOr l)) -> (forall p v, P (SDecl p v)) ->
  (forall s, P (SSelector s)) -> (forall t, P (SUnknown t)) -> forall c, P c.
Proof.
  intros h1 h2 h3 h4 h5 h6. fix IH 1. intros [c|l|l|p v|s|t].
  - apply h1, IH.
  - apply h2. induction l as [|x r IHr]; constructor; [apply IH | exact IHr].
  - apply h3. induction l as [|x r IHr]; constructor; [apply IH | exact IHr].
  - apply h4. - apply h5. - apply h6.
Qed.

(** ** Equality tests *)
Lemma vs_eqb_eq a b : vs_eqb a b = true <-> a = b.
Proof.
  destruct a as [a1 a2 a3 a4 a5], b as [b1 b2 b3 b4 b5]. split.
  - destruct a1, a2, a3, a4, a5, b1, b2, b3, b4, b5; vm_compute; congruence.
  - intros H; injection H as -> -> -> -> ->. destruct b1, b2, b3, b4, b5; reflexivity.
Qed.
Lemma pid_eqb_eq a b : pid_eqb a b = true <-> a = b.
Proof.
  destruct a, b; cbn [pid_eqb]; try (split; [discriminate | congruence]);
    rewrite ?andb_true_iff, ?String.eqb_eq, ?vs_eqb_eq; try tauto; split; intuition congruence.
Qed.

Lemma cvs_eqb_spec l : Forall (fun t => forall u, cv_eqb t u = true <-> t = u) l ->
  forall m, cvs_eqb l m = true <-> l = m.
Proof.
  induction 1 as [|x r Hx _ IH]; intros [|y m]; cbn [cvs_eqb]; try (split; congruence); try tauto.
  rewrite andb_true_iff, Hx, IH. split; [intros [-> ->]; reflexivity | intros H; injection H; auto].
Qed.
Lemma cv_eqb_eq t : forall u, cv_eqb t u = true <-> t = u.
Proof.
  induction t as [s| | |s|f b IH|b IH|o b IH] using cv_rect'; intros [s'| | |s'|f' b'|b'|o' b'];
    cbn [cv_eqb]; try (split; congruence); try tauto.
  - rewrite String.eqb_eq. split; congruence.
  - rewrite String.eqb_eq. split; congruence.
  - fold cvs_eqb. rewrite andb_true_iff, String.eqb_eq, (cvs_eqb_spec b IH). split; intuition congruence.
  - fold cvs_eqb. rewrite (cvs_eqb_spec b IH). split; congruence.
  - fold cvs_eqb. rewrite andb_true_iff, String.eqb_eq, (cvs_eqb_spec b IH). split; intuition congruence.
Qed.
Lemma cvs_eqb_eq l m : cvs_eqb l m = true <-> l = m.
Proof. apply cvs_eqb_spec, Forall_forall. intros t _. apply cv_eqb_eq. Qed.

Fixpoint sconds_eqb (l m : list scond) : bool :=
  match l, m with
  | [], [] => true
  | x :: l', y :: m' => scond_eqb x y && sconds_eqb l' m'
  | _, _ => false
  end.
Lemma sconds_eqb_spec l : Forall (fun t => forall u, scond_eqb t u = true <-> t = u) l ->
  forall m, sconds_eqb l m = true <-> l = m.
Proof.
  induction 1 as [|x r Hx _ IH]; intros [|y m]; cbn [sconds_eqb]; try (split; congruence); try tauto.
  rewrite andb_true_iff, Hx, IH. split; [intros [-> ->]; reflexivity | intros H; injection H; auto].
Qed.
Lemma scond_eqb_eq c : forall d, scond_eqb c d = true <-> c = d.
Proof.
  induction c as [c IH|l IH|l IH|p v|s|t] using scond_rect'; intros [d|m|m|q w|s'|t'];
    cbn [scond_eqb]; try (split; congruence); try tauto.
  - rewrite IH. split; congruence.
  - fold sconds_eqb. rewrite (sconds_eqb_spec l IH). split; congruence.
  - fold sconds_eqb. rewrite (sconds_eqb_spec l IH). split; congruence.
  - rewrite andb_true_iff, pid_eqb_eq, cvs_eqb_eq. split; intuition congruence.
  - rewrite cvs_eqb_eq. split; congruence.
  - rewrite cv_eqb_eq. split; congruence.
Qed.
Lemma skey_eqb_eq a b : skey_eqb a b = true <-> a = b.
Proof.
  destruct a as [p v], b as [q w]. unfold skey_eqb. cbn [fst snd].
  rewrite andb_true_iff, pid_eqb_eq, cvs_eqb_eq. split; intuition congruence.
Qed.

(** ** [and] and [or] *)
Lemma s_and_holds B a b : holds B (s_and a b) = holds B a && holds B b.
Proof.
  assert (D : forall c, holds B (if scond_eqb c b then c else SAnd [c; b]) = holds B c && holds B b).
  { intros c. destruct (scond_eqb c b) eqn:E.
    - apply scond_eqb_eq in E. subst. destruct (holds B b); reflexivity.
    - cbn [holds forallb]. rewrite andb_true_r. reflexivity. }
  destruct a as [c|l|l|p v|s|t]; try apply D.
  cbn [s_and]. destruct (existsb (scond_eqb b) l) eqn:E.
  - apply existsb_exists in E. destruct E as [x [Hx E]]. apply scond_eqb_eq in E. subst x.
    cbn [holds]. destruct (forallb (holds B) l) eqn:F; [|reflexivity].
    rewrite forallb_forall in F. rewrite (F _ Hx). reflexivity.
  - cbn [holds]. rewrite forallb_app. cbn [forallb]. rewrite andb_true_r. reflexivity.
Qed.
Lemma s_or_holds B a b : holds B (s_or a b) = holds B a || holds B b.
Proof.
  assert (D : forall c, holds B (if scond_eqb c b then c else SOr [c; b]) = holds B c || holds B b).
  { intros c. destruct (scond_eqb c b) eqn:E.
    - apply scond_eqb_eq in E. subst. destruct (holds B b); reflexivity.
    - cbn [holds existsb]. rewrite orb_false_r. reflexivity. }
  destruct a as [c|l|l|p v|s|t]; try apply D.
  cbn [s_or]. destruct (existsb (scond_eqb b) l) eqn:E.
  - apply existsb_exists in E. destruct E as [x [Hx E]]. apply scond_eqb_eq in E. subst x.
    cbn [holds]. destruct (holds B b) eqn:F; [|rewrite orb_false_r; reflexivity].
    rewrite orb_true_r. apply existsb_exists. exists b. auto.
  - cbn [holds]. rewrite existsb_app. cbn [existsb]. rewrite orb_false_r. reflexivity.
Qed.
Lemma printable_all l :
  (fix all m := match m with [] => True | x :: r => printable x /\ all r end) l <-> Forall printable l.
Proof.
  induction l as [|x r IH]; [split; auto; constructor|]. split.
  - intros [H1 H2]. constructor; [exact H1 | apply IH; exact H2].
  - intros H. inversion H; subst. split; [assumption | apply IH; assumption].
Qed.
Lemma printable_and l : printable (SAnd l) <-> l <> [] /\ Forall printable l.
Proof. cbn [printable]. rewrite printable_all. reflexivity. Qed.
Lemma printable_or l : printable (SOr l) <-> l <> [] /\ Forall printable l.
Proof. cbn [printable]. rewrite printable_all. reflexivity. Qed.
Lemma s_and_printable a b : printable a -> printable b -> printable (s_and a b).
Proof.
  intros Ha Hb.
  assert (D : forall c, printable c -> printable (if scond_eqb c b then c else SAnd [c; b])).
  { intros c Hc. destruct (scond_eqb c b); [exact Hc|]. apply printable_and.
    split; [discriminate | repeat constructor; assumption]. }
  destruct a as [c|l|l|p v|s|t]; try (apply D; exact Ha).
  cbn [s_and]. destruct (existsb (scond_eqb b) l); [exact Ha|]. apply printable_and in Ha. apply printable_and.
  destruct Ha as [H1 H2]. split; [destruct l; discriminate|]. apply Forall_app. auto.
Qed.
Lemma s_or_printable a b : printable a -> printable b -> printable (s_or a b).
Proof.
  intros Ha Hb.
  assert (D : forall c, printable c -> printable (if scond_eqb c b then c else SOr [c; b])).
  { intros c Hc. destruct (scond_eqb c b); [exact Hc|]. apply printable_or.
    split; [discriminate | repeat constructor; assumption]. }
  destruct a as [c|l|l|p v|s|t]; try (apply D; exact Ha).
  cbn [s_or]. destruct (existsb (scond_eqb b) l); [exact Ha|]. apply printable_or in Ha. apply printable_or.
  destruct Ha as [H1 H2]. split; [destruct l; discriminate|]. apply Forall_app. auto.
Qed.

(** ** The meaning of printed text *)
Section Print.
Variable B : browser.

Definition single (x : cv * bool) : list cv := [fst x].
(** Component values with the meaning [b] as operands *)
Definition operand (x : cv * bool) : Prop := in_parens B (fst x) = Some (snd x).

Lemma join_app sep (l m : list (list cv)) : l <> [] -> m <> [] ->
  join sep (l ++ m) = join sep l ++ sep ++ join sep m.
Proof.
  intros Hl Hm. induction l as [|x r IH]; [congruence|]. destruct r as [|y r].
  - cbn [app join]. destruct m; [congruence|]. reflexivity.
  - cbn [app] in *. cbn [join]. cbn [join] in IH. rewrite IH by discriminate.
    rewrite <- !app_assoc. reflexivity.
Qed.

Lemma ieq_refl s : ieq s s = true.
Proof. apply String.eqb_refl. Qed.

Lemma chain_join kw f (l : list (cv * bool)) : Forall operand l -> forall acc,
  chain kw f acc (map (fun x => (x, in_parens B x)) (flat_map (fun x => [CIdent kw; fst x]) l))
  = Some (fold_left (fun a x => f a (snd x)) l acc).
Proof.
  induction 1 as [|[t b] r Hx _ IH]; intros acc; [reflexivity|].
  unfold operand in Hx. cbn [fst snd] in Hx. cbn [flat_map app map fst]. rewrite Hx. cbn [chain].
  rewrite ieq_refl, IH. reflexivity.
Qed.
Lemma join_singles kw (x : cv * bool) (r : list (cv * bool)) :
  join [CIdent kw] (map single (x :: r)) = fst x :: flat_map (fun y => [CIdent kw; fst y]) r.
Proof.
  revert x. induction r as [|y r IH]; intros x; [reflexivity|].
  change (map single (x :: y :: r)) with (single x :: map single (y :: r)).
  cbn [join]. destruct (map single (y :: r)) eqn:E; [discriminate|]. rewrite <- E, IH. reflexivity.
Qed.
Lemma fold_and (l : list (cv * bool)) acc :
  fold_left (fun a x => a && snd x) l acc = acc && forallb snd l.
Proof.
  revert acc. induction l as [|x r IH]; intros acc; cbn [fold_left forallb]; [rewrite andb_true_r; reflexivity|].
  rewrite IH, andb_assoc. reflexivity.
Qed.
Lemma fold_or (l : list (cv * bool)) acc :
  fold_left (fun a x => a || snd x) l acc = acc || existsb snd l.
Proof.
  revert acc. induction l as [|x r IH]; intros acc; cbn [fold_left existsb]; [rewrite orb_false_r; reflexivity|].
  rewrite IH, orb_assoc. reflexivity.
Qed.
(** An operand is not an identifier. *)
Lemma operand_shape t b : in_parens B t = Some b ->
  (exists f body, t = CFun f body) \/ (exists body, t = CParen body).
Proof. destruct t; try discriminate; intros _; eauto. Qed.
Lemma condition_operand t b r : in_parens B t = Some b ->
  condition ((t, Some b) :: r) =
  match chain "and" andb b r with Some v => Some v | None => chain "or" orb b r end.
Proof.
  intros H. destruct (operand_shape t b H) as [[f [body ->]]|[body ->]]; destruct r as [|[c [d|]] [|y r]];
    reflexivity.
Qed.
Lemma join_head_not kw (y : cv * bool) (r : list (cv * bool)) acc f : in_parens B (fst y) <> None -> 
  String.eqb (lower "and") (lower kw) = false ->
  chain "and" f acc (map (fun x => (x, in_parens B x)) (flat_map (fun x => [CIdent kw; fst x]) (y :: r))) = None.
Proof.
  intros H E. cbn [flat_map app map]. destruct (in_parens B (fst y)) eqn:Ey; [|congruence].
  cbn [chain]. unfold ieq. rewrite String.eqb_sym, E. reflexivity.
Qed.

Lemma and_text x r : Forall operand (x :: r) ->
  text_holds B (join [CIdent "and"] (map single (x :: r))) = Some (forallb snd (x :: r)).
Proof.
  intros H. inversion H as [|? ? Hx Hr]; subst. rewrite join_singles. unfold text_holds.
  cbn [map]. unfold operand in Hx. rewrite Hx, (condition_operand _ _ _ Hx), chain_join by exact Hr.
  rewrite fold_and. reflexivity.
Qed.
Lemma or_text x r : Forall operand (x :: r) ->
  text_holds B (join [CIdent "or"] (map single (x :: r))) = Some (existsb snd (x :: r)).
Proof.
  intros H. inversion H as [|? ? Hx Hr]; subst. rewrite join_singles. unfold text_holds.
  cbn [map]. unfold operand in Hx. rewrite Hx, (condition_operand _ _ _ Hx).
  destruct r as [|y r]; [cbn; rewrite orb_false_r; reflexivity|].
  inversion Hr as [|? ? Hy Hr']; subst. unfold operand in Hy.
  rewrite join_head_not by (congruence || reflexivity). rewrite chain_join by exact Hr.
  rewrite fold_or. reflexivity.
Qed.

Lemma paren_text l b : text_holds B l = Some b -> in_parens B (CParen l) = Some b.
Proof. intros H. cbn [in_parens]. unfold text_holds in H. rewrite H. reflexivity. Qed.

Lemma paren_decl n v : no_error v = true ->
  in_parens B (CParen (CIdent n :: CColon :: v)) = Some (b_decl B (canonical_name n) v).
Proof.
  intros H. cbn [in_parens map]. unfold condition, declaration. rewrite H. destruct v; reflexivity.
Qed.

(** The printed form as a chain of operands *)
Definition chained (op : string) (all : (cv * bool -> bool) -> list (cv * bool) -> bool) c :=
  exists l, l <> [] /\ Forall operand l /\ print_scond c = join [CIdent op] (map single l)
            /\ holds B c = all snd l.

Lemma prefix_cases p : let q := vs_or_none p in vs_eqb q (vs_one Unprefixed) = false ->
  vs_iter q = vs_iter p /\ vs_iter p <> [].
Proof. destruct p as [[] [] [] [] []]; cbn; intros H; (discriminate H || (split; [reflexivity | discriminate])). Qed.

Lemma decl_holds_iter p v :
  decl_holds B p v = existsb (fun q => b_decl B (canonical_name (pfx_text q ++ id_name p)%string) v)
                             (vs_iter (vs_or_none (pid_prefix p))).
Proof.
  destruct p as [n [[] [] [] [] []]|n| |n]; cbn -[canonical_name]; rewrite ?orb_false_r, ?orb_assoc; reflexivity.
Qed.

Lemma child_text (c : scond) (op : string) all x :
  (match c with SAnd _ => op = "and" /\ all = @forallb (cv * bool)
   | SOr _ => op = "or" /\ all = @existsb (cv * bool) | _ => False end) ->
  text_holds B (print_scond x) = Some (holds B x) ->
  match x with
  | SAnd _ => chained "and" (@forallb _) x
  | SOr _ => chained "or" (@existsb _) x
  | SNot _ => True
  | _ => exists t, print_scond x = [t] /\ in_parens B t = Some (holds B x)
  end ->
  exists l, l <> [] /\ Forall operand l
    /\ (if needs_parens x c then [CParen (print_scond x)] else print_scond x)
       = join [CIdent op] (map single l)
    /\ holds B x = all snd l.
Proof.
  intros Hc Ht Hx.
  assert (P : exists l, l <> [] /\ Forall operand l
    /\ [CParen (print_scond x)] = join [CIdent op] (map single l) /\ holds B x = all snd l).
  { exists [(CParen (print_scond x), holds B x)]. split; [discriminate|].
    split; [constructor; [apply paren_text; exact Ht | constructor]|]. split; [reflexivity|].
    destruct c; try contradiction; destruct Hc as [_ ->]; cbn; rewrite ?andb_true_r, ?orb_false_r; reflexivity. }
  assert (Q : (exists t, print_scond x = [t] /\ in_parens B t = Some (holds B x)) ->
    exists l, l <> [] /\ Forall operand l
    /\ print_scond x = join [CIdent op] (map single l) /\ holds B x = all snd l).
  { intros [t [E H]]. exists [(t, holds B x)]. split; [discriminate|].
    split; [constructor; [exact H | constructor]|]. split; [exact E|].
    destruct c; try contradiction; destruct Hc as [_ ->]; cbn; rewrite ?andb_true_r, ?orb_false_r; reflexivity. }
  destruct x, c; try contradiction; cbn [needs_parens]; auto.
  - destruct Hc as [-> ->]. exact Hx.
  - destruct Hc as [-> ->]. exact Hx.
Qed.

Lemma children (c : scond) (op : string) (all : (cv * bool -> bool) -> list (cv * bool) -> bool)
  (f : scond -> list cv) l :
  (forall a b, all snd (a ++ b) = match c with SAnd _ => all snd a && all snd b | _ => all snd a || all snd b end) ->
  l <> [] ->
  Forall (fun x => exists m, m <> [] /\ Forall operand m /\ f x = join [CIdent op] (map single m)
                             /\ holds B x = all snd m) l ->
  exists m, m <> [] /\ Forall operand m /\ join [CIdent op] (map f l) = join [CIdent op] (map single m)
    /\ match c with SAnd _ => forallb (holds B) l | _ => existsb (holds B) l end = all snd m.
Proof.
  intros Ha Hl H. induction H as [|x r [m [H1 [H2 [H3 H4]]]] Hr IH]; [congruence|].
  destruct r as [|y r].
  - exists m. repeat split; try assumption. cbn [forallb existsb].
    destruct c; rewrite ?andb_true_r, ?orb_false_r; assumption.
  - destruct IH as [m' [I1 [I2 [I3 I4]]]]; [discriminate|]. exists (m ++ m').
    split; [destruct m; [congruence | discriminate]|]. split; [apply Forall_app; auto|]. split.
    + rewrite map_app, join_app by (intros Hm; apply map_eq_nil in Hm; congruence).
      rewrite <- I3, <- H3. reflexivity.
    + rewrite Ha, <- H4, <- I4. destruct c; reflexivity.
Qed.

Lemma print_text c : printable c ->
  text_holds B (print_scond c) = Some (holds B c)
  /\ match c with
     | SAnd _ => chained "and" (@forallb _) c
     | SOr _ => chained "or" (@existsb _) c
     | SNot _ => True
     | _ => exists t, print_scond c = [t] /\ in_parens B t = Some (holds B c)
     end.
Proof.
  assert (One : forall c, (exists t, print_scond c = [t] /\ in_parens B t = Some (holds B c)) ->
            text_holds B (print_scond c) = Some (holds B c)).
  { intros d [t [E H]]. rewrite E. unfold text_holds. cbn [map]. rewrite H, (condition_operand _ _ _ H).
    reflexivity. }
  induction c as [c IH|l IH|l IH|p v|s|t] using scond_rect'; intros Hp.
  - split; [|exact I]. cbn [printable] in Hp. destruct (IH Hp) as [H1 H2].
    assert (E : exists u, print_scond (SNot c) = [CIdent "not"; u] /\ in_parens B u = Some (holds B c)).
    { cbn [print_scond]. destruct c; cbn [needs_parens];
        try (eexists; split; [reflexivity | apply paren_text; exact H1]);
        destruct H2 as [u [-> H2]]; exists u; auto. }
    destruct E as [u [-> E]]. unfold text_holds. cbn [map]. rewrite E. reflexivity.
  - assert (C : chained "and" (@forallb _) (SAnd l)).
    { apply printable_and in Hp. destruct Hp as [Hl Hp].
      assert (K : Forall (fun x => exists m, m <> [] /\ Forall operand m /\
         (if needs_parens x (SAnd l) then [CParen (print_scond x)] else print_scond x)
          = join [CIdent "and"] (map single m) /\ holds B x = forallb snd m) l).
      { apply Forall_forall. intros x Hx. rewrite Forall_forall in IH, Hp.
        destruct (IH x Hx (Hp x Hx)) as [I1 I2].
        apply (child_text (SAnd l) "and" (@forallb _)); auto. }
      destruct (children (SAnd l) "and" (@forallb _) _ l (fun a b => forallb_app _ a b) Hl K)
        as [m [H1 [H2 [H3 H4]]]].
      exists m. auto. }
    split; [|exact C]. destruct C as [m [H1 [H2 [H3 H4]]]]. rewrite H3, H4. destruct m; [congruence|].
    apply and_text. exact H2.
  - assert (C : chained "or" (@existsb _) (SOr l)).
    { apply printable_or in Hp. destruct Hp as [Hl Hp].
      assert (K : Forall (fun x => exists m, m <> [] /\ Forall operand m /\
         (if needs_parens x (SOr l) then [CParen (print_scond x)] else print_scond x)
          = join [CIdent "or"] (map single m) /\ holds B x = existsb snd m) l).
      { apply Forall_forall. intros x Hx. rewrite Forall_forall in IH, Hp.
        destruct (IH x Hx (Hp x Hx)) as [I1 I2].
        apply (child_text (SOr l) "or" (@existsb _)); auto. }
      destruct (children (SOr l) "or" (@existsb _) _ l (fun a b => existsb_app _ a b) Hl K)
        as [m [H1 [H2 [H3 H4]]]].
      exists m. auto. }
    split; [|exact C]. destruct C as [m [H1 [H2 [H3 H4]]]]. rewrite H3, H4. destruct m; [congruence|].
    apply or_text. exact H2.
  - assert (C : exists t, print_scond (SDecl p v) = [t] /\ in_parens B t = Some (holds B (SDecl p v))).
    { cbn [printable] in Hp. cbn [print_scond holds]. rewrite decl_holds_iter.
      destruct (vs_eqb (vs_or_none (pid_prefix p)) (vs_one Unprefixed)) eqn:E.
      - eexists. split; [reflexivity|]. rewrite paren_decl by exact Hp. apply vs_eqb_eq in E. rewrite E.
        cbn -[canonical_name]. rewrite orb_false_r. destruct p; reflexivity.
      - eexists. split; [reflexivity|]. apply paren_text.
        destruct (prefix_cases _ E) as [E1 E2]. rewrite E1.
        set (mk q := (CParen (CIdent (pfx_text q ++ pid_name p)%string :: CColon :: v),
                      b_decl B (canonical_name (pfx_text q ++ id_name p)%string) v)).
        replace (map (fun q => [CParen (CIdent (pfx_text q ++ pid_name p)%string :: CColon :: v)]) (vs_iter (pid_prefix p)))
          with (map single (map mk (vs_iter (pid_prefix p)))) by (rewrite map_map; reflexivity).
        destruct (vs_iter (pid_prefix p)) as [|q0 qs]; [congruence|].
        change (map mk (q0 :: qs)) with (mk q0 :: map mk qs).
        rewrite or_text.
        + f_equal. change (mk q0 :: map mk qs) with (map mk (q0 :: qs)). generalize (q0 :: qs).
          intros l. induction l as [|q r IHr]; [reflexivity|]. cbn [map existsb]. rewrite IHr. reflexivity.
        + change (mk q0 :: map mk qs) with (map mk (q0 :: qs)). generalize (q0 :: qs).
          intros l. induction l as [|q r IHr]; [constructor|]. cbn [map]. constructor; [|exact IHr].
          unfold operand, mk. cbn [fst snd]. rewrite paren_decl by exact Hp. destruct p; reflexivity. }
    split; [apply One|]; exact C.
  - assert (C : exists t, print_scond (SSelector s) = [t] /\ in_parens B t = Some (holds B (SSelector s))).
    { eexists. split; [reflexivity|]. cbn [printable] in Hp. cbn [in_parens]. rewrite Hp. reflexivity. }
    split; [apply One|]; exact C.
  - assert (C : exists u, print_scond (SUnknown t) = [u] /\ in_parens B u = Some (holds B (SUnknown t))).
    { eexists. split; [reflexivity|]. apply Hp. }
    split; [apply One|]; exact C.
Qed.
End Print.

Lemma print_meaning B c : printable c -> text_holds B (print_scond c) = Some (holds B c).
Proof. intros H. apply (print_text B c H). Qed.
