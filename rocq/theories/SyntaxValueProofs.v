(** * Values of registered properties: proofs *)
From Coq Require Import List Bool Ascii String Lia.
From Verif Require Import AnimModel SyntaxModel SyntaxSpec.
Import ListNotations.
Local Open Scope list_scope.

Lemma multiplier_eq (m : multiplier) : m = One \/ m <> One.
Proof. destruct m; [left; reflexivity|right; discriminate|right; discriminate]. Qed.
Section Values.
Context {tok val : Type} (one : kind -> tok -> option val) (ident : tok -> option string) (comma : tok -> bool) (none : tok -> bool).
Local Notation VSingle := (VSingle one ident).
Local Notation VMany := (VMany one ident comma).
Local Notation VComponent := (VComponent one ident comma).
Local Notation VSyntax := (VSyntax one ident comma).
Local Notation parse_single := (parse_single one ident none).
Local Notation repeat_loop := (repeat_loop one ident comma none).

Local Notation no_none := (no_none none).
Lemma transforms_ok l : forall vs rest, transforms one l = (vs, rest) -> exists a, l = a ++ rest /\ Forall2 (fun t v => one TransformFunction t = Some v) a vs.
Proof.
  induction l as [|t l IH]; cbn; intros vs rest H.
  - injection H as <- <-. exists []. split; [reflexivity|constructor].
  - destruct (one TransformFunction t) as [v|] eqn:E.
    + destruct (transforms one l) as [vs' rest']. injection H as <- <-. destruct (IH _ _ eq_refl) as (a & -> & F). exists (t :: a). split; [reflexivity|]. constructor; assumption.
    + injection H as <- <-. exists []. split; [reflexivity|constructor].
Qed.
Lemma transforms_all l vs : Forall2 (fun t v => one TransformFunction t = Some v) l vs -> transforms one l = (vs, []).
Proof. induction 1 as [|t v l vs H _ IH]; [reflexivity|]. cbn. rewrite H, IH. reflexivity. Qed.
Lemma single_reads k l v rest : parse_single k l = Some (v, rest) -> no_none k l -> exists a, l = a ++ rest /\ a <> [] /\ VSingle k a v.
Proof.
  intros H N. destruct l as [|t r]; [discriminate|].
  assert (X : (forall s, k <> Literal s) -> k <> TransformList -> option_map (fun v => (Value k v, r)) (one k t) = Some (v, rest) -> exists a, t :: r = a ++ rest /\ a <> [] /\ VSingle k a v).
  { intros A B C. destruct (one k t) as [x|] eqn:E; [|discriminate]. injection C as <- <-. exists [t]. split; [reflexivity|]. split; [discriminate|]. constructor; assumption. }
  destruct k; try (apply X; [discriminate|discriminate|exact H]).
  - cbn in H. rewrite (N eq_refl) in H. destruct (one TransformFunction t) as [x|] eqn:E; [|discriminate]. destruct (transforms one r) as [vs rest'] eqn:T. injection H as <- <-.
    destruct (transforms_ok _ _ _ T) as (a & -> & F). exists (t :: a). split; [reflexivity|]. split; [discriminate|]. constructor; [constructor; assumption|discriminate].
  - cbn in H. destruct (ident t) as [n|] eqn:E; [|discriminate]. destruct (String.eqb n s) eqn:Q; [|discriminate]. injection H as <- <-. apply String.eqb_eq in Q. subst s.
    exists [t]. split; [reflexivity|]. split; [discriminate|]. constructor. exact E.
Qed.
Lemma single_whole k l v : VSingle k l v -> no_none k l -> parse_single k l = Some (v, []).
Proof.
  intros H N. destruct H as [k t v A B E|l vs F D|t s E].
  - cbn. rewrite E. destruct k; try reflexivity; [congruence|destruct (A s eq_refl)].
  - destruct F as [|t v l vs E F]; [congruence|]. cbn. rewrite (N eq_refl), E, (transforms_all _ _ F). reflexivity.
  - cbn. rewrite E, String.eqb_refl. reflexivity.
Qed.
Lemma single_begins k l v r : VSingle k l v -> k <> TransformList -> parse_single k (l ++ r) = Some (v, r).
Proof.
  intros H N. destruct H as [k t v A B E|l vs F D|t s E].
  - cbn. rewrite E. destruct k; try reflexivity; [congruence|destruct (A s eq_refl)].
  - congruence.
  - cbn. rewrite E, String.eqb_refl. reflexivity.
Qed.
Lemma single_nonempty k l v : VSingle k l v -> l <> [].
Proof. intros H. destruct H as [k t v A B E|l vs F D|t s E]; try discriminate. destruct F; congruence. Qed.
Lemma many_nonempty k m l vs : VMany k m l vs -> l <> [].
Proof. intros H. destruct H as [l v H|l v r vs E H _|l v t r vs E C H _]; [exact (single_nonempty _ _ _ H)|..]; apply single_nonempty in H; (destruct l; [congruence|discriminate]). Qed.

Lemma none_trivial k l : k <> TransformList -> no_none k l.
Proof. intros H E. congruence. Qed.
Lemma many_read k m l vs : VMany k m l vs -> k <> TransformList -> m <> One -> forall fuel seen, List.length l < fuel ->
  repeat_loop fuel (Component k m) seen l = Some (Some (Repeated (seen ++ vs) m, [])).
Proof.
  intros H N M. induction H as [l v H|l v r vs E H G IH|l v t r vs E C H G IH]; intros fuel seen L; (destruct fuel as [|fuel]; [lia|]); cbn [SyntaxModel.repeat_loop c_kind c_multiplier].
  - rewrite (single_whole _ _ _ H (none_trivial _ _ N)). destruct m; [congruence|reflexivity|reflexivity].
  - rewrite (single_begins _ _ _ r H N). subst m. pose proof (many_nonempty _ _ _ _ G) as R. destruct r as [|u r]; [congruence|].
    rewrite (IH fuel (seen ++ [v])); [rewrite <- List.app_assoc; reflexivity|]. pose proof (single_nonempty _ _ _ H) as Q. rewrite app_length in L. destruct l; [congruence|]. cbn in L |- *. lia.
  - rewrite (single_begins _ _ _ (t :: r) H N). subst m. rewrite C.
    rewrite (IH fuel (seen ++ [v])); [rewrite <- List.app_assoc; reflexivity|]. rewrite app_length in L. cbn in L. lia.
Qed.
Lemma many_ok k m : k <> TransformList -> m <> One -> forall fuel seen l p, repeat_loop fuel (Component k m) seen l = Some (Some p) ->
  exists vs, p = (Repeated (seen ++ vs) m, []) /\ VMany k m l vs.
Proof.
  intros N M. induction fuel as [|fuel IH]; intros seen l p H; [discriminate|]. cbn [SyntaxModel.repeat_loop c_kind c_multiplier] in H.
  destruct (parse_single k l) as [[v rest]|] eqn:E; [|discriminate]. destruct (single_reads _ _ _ _ E (none_trivial _ _ N)) as (a & -> & A & S). destruct m; [congruence|..].
  - destruct rest as [|t rest]; [injection H as <-; exists [v]; split; [reflexivity|]; rewrite app_nil_r; apply vm_one, S|].
    destruct (IH _ _ _ H) as (vs & -> & V). exists (v :: vs). split; [rewrite <- List.app_assoc; reflexivity|]. apply vm_space; [reflexivity|exact S|exact V].
  - destruct rest as [|t rest]; [injection H as <-; exists [v]; split; [reflexivity|]; rewrite app_nil_r; apply vm_one, S|].
    destruct (comma t) eqn:C; [|discriminate]. destruct (IH _ _ _ H) as (vs & -> & V). exists (v :: vs). split; [rewrite <- List.app_assoc; reflexivity|]. apply vm_comma; [reflexivity|exact C|exact S|exact V].
Qed.
Lemma loop_ends c : single_only c -> forall fuel seen l, List.length l < fuel -> repeat_loop fuel c seen l <> None.
Proof.
  intros O. induction fuel as [|fuel IH]; intros seen l L; [lia|]. cbn. destruct (parse_single (c_kind c) l) as [[v rest]|] eqn:E; [|discriminate].
  destruct (c_multiplier c) eqn:M; [discriminate|..]; (assert (N : c_kind c <> TransformList) by (intros X; rewrite (O X) in M; discriminate));
  destruct (single_reads _ _ _ _ E (none_trivial _ _ N)) as (a & -> & A & _); rewrite app_length in L; (destruct a as [|u a]; [congruence|]); cbn in L;
  (destruct rest as [|t rest]; [discriminate|]).
  - apply IH. cbn in *. lia.
  - destruct (comma t); [|discriminate]. apply IH. cbn in *. lia.
Qed.

(** A component that the value is of *)
Lemma component_read c l p : VComponent c l p -> single_only c -> no_none (c_kind c) l -> repeat_loop (S (List.length l)) c [] l = Some (Some (p, [])).
Proof.
  intros H O N. destruct H as [k l v H|k m l vs M H].
  - cbn [SyntaxModel.repeat_loop c_kind c_multiplier] in *. rewrite (single_whole _ _ _ H N). reflexivity.
  - rewrite (many_read _ _ _ _ H); [reflexivity| |exact M|lia]. intros X. exact (M (O X)).
Qed.
(** And one that it is not of *)
Lemma component_skip c l : (forall q, ~ VComponent c l q) -> ~ stops_early one ident comma c l -> single_only c -> no_none (c_kind c) l ->
  repeat_loop (S (List.length l)) c [] l = Some None.
Proof.
  intros H S O N. destruct c as [k m]. destruct (multiplier_eq m) as [-> |M].
  - cbn [SyntaxModel.repeat_loop c_kind c_multiplier] in *. destruct (parse_single k l) as [[v rest]|] eqn:E; [|reflexivity].
    destruct (single_reads _ _ _ _ E N) as (a & -> & A & V). exfalso. destruct rest as [|t rest].
    + apply (H (Single v)). rewrite app_nil_r. constructor. exact V.
    + apply S. split; [reflexivity|]. exists a, (t :: rest), (Single v). split; [reflexivity|]. split; [discriminate|]. constructor. exact V.
  - assert (K : k <> TransformList) by (intros X; exact (M (O X))).
    destruct (repeat_loop (Datatypes.S (List.length l)) (Component k m) [] l) as [[p|]|] eqn:E; [|reflexivity|].
    + destruct (many_ok _ _ K M _ _ _ _ E) as (vs & -> & V). destruct (H (Repeated ([] ++ vs) m)). constructor; [exact M|exact V].
    + destruct (loop_ends (Component k m) O _ _ _ (PeanoNat.Nat.lt_succ_diag_r _) E).
Qed.
Definition fine (cs : list component) (l : list tok) : Prop :=
  Forall (fun c => single_only c /\ no_none (c_kind c) l /\ ~ stops_early one ident comma c l) cs.
Theorem value_read cs l p c : VSyntax cs l p c -> fine cs l -> initial_value one ident comma none cs l = Some p.
Proof.
  intros H F. unfold initial_value. assert (X : parse_value one ident comma none cs l = Some (Some (p, []))); [|rewrite X; reflexivity].
  induction H as [c cs l p H|c cs l p d N H IH]; cbn [parse_value]; destruct (Forall_inv F) as (O & Z & S).
  - rewrite (component_read _ _ _ H O Z). reflexivity.
  - rewrite (component_skip _ _ N S O Z). apply IH, (Forall_inv_tail F).
Qed.
Theorem value_refused cs l : (forall c q, In c cs -> ~ VComponent c l q) -> fine cs l -> initial_value one ident comma none cs l = None.
Proof.
  intros H F. unfold initial_value. assert (X : parse_value one ident comma none cs l = Some None); [|rewrite X; reflexivity].
  induction F as [|c cs (O & Z & S) _ IH]; [reflexivity|]. cbn [parse_value]. rewrite (component_skip _ _ (fun q => H c q (or_introl eq_refl)) S O Z). apply IH. intros d q I. apply H. right. exact I.
Qed.

(** ** Printing *)
Context (show : val -> tok) (word : string -> tok) (comma_tok : tok).
Hypothesis show_ok : forall k t v, one k t = Some v -> one k (show v) = Some v.
Hypothesis word_ok : forall s, ident (word s) = Some s.
Hypothesis comma_ok : comma comma_tok = true.
Lemma single_print k l v : VSingle k l v -> VSingle k (print_single show word v) v.
Proof.
  intros H. destruct H as [k t v A B E|l vs F D|t s E]; cbn.
  - constructor; [exact A|exact B|eapply show_ok, E].
  - assert (G : Forall2 (fun t v => one TransformFunction t = Some v) (map show vs) vs) by (clear D; induction F as [|t v l vs E _ IH]; constructor; [eapply show_ok, E|exact IH]).
    destruct vs as [|v vs]; [congruence|]. constructor; [exact G|exact D].
  - constructor. apply word_ok.
Qed.
Lemma many_print k m l vs : VMany k m l vs -> VMany k m (print_list show word comma_tok m vs) vs.
Proof.
  induction 1 as [l v H|l v r vs E H G IH|l v t r vs E C H G IH].
  - cbn. apply vm_one. eapply single_print, H.
  - subst m. destruct vs as [|w vs]; [inversion G|]. change (print_list show word comma_tok Space (v :: w :: vs)) with (print_single show word v ++ [] ++ print_list show word comma_tok Space (w :: vs)).
    apply vm_space; [reflexivity|eapply single_print, H|exact IH].
  - subst m. destruct vs as [|w vs]; [inversion G|]. change (print_list show word comma_tok Comma (v :: w :: vs)) with (print_single show word v ++ comma_tok :: print_list show word comma_tok Comma (w :: vs)).
    apply vm_comma; [reflexivity|exact comma_ok|eapply single_print, H|exact IH].
Qed.
Theorem value_print c l p : VComponent c l p -> VComponent c (print_value show word comma_tok p) p.
Proof. intros H. destruct H as [k l v H|k m l vs M H]; cbn; constructor; [eapply single_print, H|exact M|eapply many_print, H]. Qed.
End Values.

(** Of a syntax that is read *)
Lemma syntax_single s cs : GSyntax s (Components cs) -> Forall single_only cs.
Proof.
  intros H. inversion H as [|s' l G]; subst. clear H.
  assert (X : forall s c, GComponent s c -> single_only c) by (intros s0 c [s' k _|s' k _ N|s' k _ N] E; cbn in *; [reflexivity|congruence|congruence]).
  induction G as [w s v c _ H _|w s v c r l _ H _ _ IH]; constructor; [eapply X, H|constructor|eapply X, H|exact IH].
Qed.
Theorem value_kept {tok val : Type} (one : kind -> tok -> option val) (ident : tok -> option string) (comma none : tok -> bool) (show : val -> tok) (word : string -> tok) (comma_tok : tok) :
  (forall k t v, one k t = Some v -> one k (show v) = Some v) -> (forall s, ident (word s) = Some s) -> comma comma_tok = true ->
  forall s cs l p c, GSyntax s (Components cs) -> VSyntax one ident comma cs l p c ->
  (forall d, In d cs -> no_none none (c_kind d) l /\ ~ stops_early one ident comma d l) ->
  initial_value one ident comma none cs l = Some p /\ VComponent one ident comma c (print_value show word comma_tok p) p.
Proof.
  intros A B C s cs l p c H V F. split.
  - eapply value_read; [exact V|]. apply syntax_single in H. unfold fine. rewrite Forall_forall in *. intros d I. split; [apply H, I|apply F, I].
  - assert (X : VComponent one ident comma c l p) by (clear F H; induction V; assumption). eapply value_print; eassumption.
Qed.
Theorem value_not_taken {tok val : Type} (one : kind -> tok -> option val) (ident : tok -> option string) (comma none : tok -> bool) :
  forall s cs l, GSyntax s (Components cs) -> (forall c q, In c cs -> ~ VComponent one ident comma c l q) ->
  (forall d, In d cs -> no_none none (c_kind d) l /\ ~ stops_early one ident comma d l) ->
  initial_value one ident comma none cs l = None.
Proof.
  intros s cs l H N F. apply value_refused; [exact N|]. apply syntax_single in H. unfold fine. rewrite Forall_forall in *. intros d I. split; [apply H, I|apply F, I].
Qed.
