(** * Cases: selectors that are read back, and selectors that are not *)
From Coq Require Import List Bool ZArith Ascii String Lia Arith.
Import ListNotations.
From Verif Require Import AnbModel SelTextModel SelTextSpec SelTextProofs SelTextRoot.
Local Open Scope list_scope.

(** Minified, with nesting; names need no escapes *)
Definition plain_config : config := Config true false true (fun _ => false) String.length (fun s => 2 + String.length s) (fun s => [Ident s]).
Notation pc := plain_config.
Lemma no_nesting_fine s : ~ In Nesting s -> fine_namespaces s.
Proof. intros H a n b E _. exfalso. apply H. rewrite E. apply in_or_app. right. left. reflexivity. Qed.
Ltac fine := repeat first
  [ apply Forall_nil | apply Forall_cons | apply fine_comps
  | apply fine_not | apply fine_is | apply fine_where | apply fine_any | apply fine_has | apply fine_nth | apply fine_nth_of | apply fine_host | apply fine_slotted | apply fine_cue
  | apply fine_pclass; exact I | apply fine_pclass; reflexivity | apply fine_pelement; exact I | apply fine_pelement; reflexivity | apply fine_other; exact I
  | apply no_nesting_fine; cbn; intuition discriminate ].
Ltac types := let s := fresh "s" in intros s E _ T; injection E as <-; first [discriminate T|repeat constructor].
Definition i (s : string) : tok := Ident s.
Definition cls (s : string) : list tok := [Delim Dot; Ident s].
Definition pseudo (s : string) : list tok := [Colon; Ident s].
Definition call (s : string) (a : list tok) : list tok := [Colon; Fun s a].

(** [*.a > svg|*:not(:hover, #b):is(.c) ::slotted( *.d ), x:has(> y, z + :nth-child(2n+1 of .e))::before:hover] *)
Definition case1 : list tok :=
  [Delim Star] ++ cls "a" ++ [Ws; Delim Gt; Ws; i "svg"; Delim Bar; Delim Star] ++ call "not" (pseudo "hover" ++ [Comma; Ws; Hash "b"]) ++ call "is" (cls "c") ++ [Ws; Colon] ++ call "slotted" ([Delim Star] ++ cls "d") ++
  [Comma; Ws; i "x"] ++ call "has" ([Delim Gt; Ws; i "y"; Comma; i "z"; Ws; Delim Plus; Ws] ++ call "nth-child" ([Nth "2n+1"; Ws; i "of"; Ws] ++ cls "e")) ++ [Colon] ++ pseudo "before" ++ pseudo "hover".
Definition list1 : list sel := match parse pc case1 with Some l => l | None => [] end.
Lemma case1_read : parse pc case1 = Some list1 /\ List.length list1 = 2 /\ Forall (fine_sel pc) list1 /\
  print pc list1 = cls "a" ++ [Delim Gt; i "svg"; Delim Bar; Delim Star] ++ call "not" (pseudo "hover" ++ [Comma; Hash "b"]) ++ cls "c" ++ [Ws; Colon] ++ call "slotted" (cls "d") ++
  [Comma; i "x"] ++ call "has" ([Delim Gt; i "y"; Comma; i "z"; Delim Plus] ++ call "nth-child" ([Nth "odd"; Ws; i "of"; Ws] ++ cls "e")) ++ pseudo "before" ++ pseudo "hover".
Proof.
  split; [reflexivity|]. split; [reflexivity|]. split; [|reflexivity].
  unfold list1. vm_compute (match parse _ _ with Some l => l | None => [] end). fine; try (repeat constructor; fail); types.
Qed.
(** [.a:is(svg|p.b)] stays as it is *)
Definition case3 : list tok := cls "a" ++ call "is" ([i "svg"; Delim Bar; i "p"] ++ cls "b").
Definition list3 : list sel := [[Class "a"; Is [[Ns "svg"; Local "p"; Class "b"]]]].
Lemma case3_read : parse pc case3 = Some list3 /\ Forall (fine_sel pc) list3 /\ print pc list3 = case3.
Proof. split; [reflexivity|]. split; [|reflexivity]. unfold list3. fine; try (repeat constructor; fail); types. Qed.

(** Nested: [> .a, .b &, .c] *)
Definition case2 : list tok := [Delim Gt; Ws] ++ cls "a" ++ [Comma; Ws] ++ cls "b" ++ [Ws; Delim Amp; Comma; Ws] ++ cls "c".
Definition list2 : list sel := [[Nesting; Comb Child; Class "a"]; [Class "b"; Comb Descendant; Nesting]; [Nesting; Comb Descendant; Class "c"]].
Lemma case2_read : parse_nested pc case2 = Some list2 /\ Forall (fine_sel pc) list2 /\ Forall (fun s => existsb nests s = true) list2.
Proof.
  split; [reflexivity|]. split; [|repeat constructor].
  assert (NN : forall s, Forall (fun c => is_namespace c = false) s -> fine_namespaces s).
  { intros s H a n b E K. rewrite E in H. apply Forall_app in H. destruct H as [_ H]. inversion H as [|? ? _ H1]; subst. inversion H1; subst. congruence. }
  unfold list2. fine; apply NN; repeat constructor.
Qed.

(** ** Not read back *)
(** [l] is not read back from what is printed for it *)
Definition lost (cfg : config) (l : list sel) : Prop := ~ exists l', parse cfg (print cfg l) = Some l' /\ Forall2 same_meaning l l'.
Lemma lost_none cfg l : parse cfg (print cfg l) = None -> lost cfg l.
Proof. intros H (l' & E & _). congruence. Qed.
Lemma lost_some cfg s s' : parse cfg (print cfg [s]) = Some [s'] -> ~ same_meaning s s' -> lost cfg [s].
Proof. intros H N (l' & E & F). rewrite H in E. injection E as <-. inversion F; subst. contradiction. Qed.
(** The tokens [bad] are read as [l], which is not read back *)
Definition written_wrong (bad : list tok) (l : list sel) : Prop := parse pc bad = Some l /\ lost pc l.

(** [:nth-col(1)] *)
Lemma nth_col_lost : written_wrong (call "nth-col" [Nth "1"]) [[NthComp NthCol 0 1]].
Proof. split; [reflexivity|]. apply lost_none. reflexivity. Qed.
(** [:lang("")] *)
Lemma lang_lost : written_wrong (call "lang" [Str ""]) [[PClass (Lang [""%string])]].
Proof. split; [reflexivity|]. apply lost_none. reflexivity. Qed.
(** [.a:is(&div)] is written [.a&div] *)
Lemma is_nesting_lost : written_wrong (cls "a" ++ call "is" [Delim Amp; i "div"]) [[Class "a"; Is [[Nesting; Local "div"]]]].
Proof. split; [reflexivity|]. apply lost_none. reflexivity. Qed.
(** [a &*|*.b] is written [a &*|.b] *)
Lemma nesting_namespace_lost : written_wrong ([i "a"; Ws; Delim Amp; Delim Star; Delim Bar; Delim Star] ++ cls "b") [[Local "a"; Comb Descendant; Nesting; AnyNs; Univ; Class "b"]].
Proof. split; [reflexivity|]. apply lost_none. reflexivity. Qed.

(** A document with one element, where one simple selector holds and counting is matching *)
Definition tiny (c0 : comp -> Prop) : document := Document unit (fun _ _ _ => True) (fun c _ => c0 c) (fun _ _ _ P e => P e) (fun _ _ _ P Q H e => H e).
(** [:-moz-placeholder] and [:-ms-input-placeholder] are written with names that no browser knows *)
Lemma placeholder_lost : written_wrong (pseudo "-moz-placeholder") [[PClass (PlaceholderShown Moz)]] /\ written_wrong (pseudo "-ms-input-placeholder") [[PClass (PlaceholderShown Ms)]].
Proof.
  split; (split; [reflexivity|]).
  - apply (lost_some pc _ [PClass (CustomClass "-moz-placeholder-shown")]); [reflexivity|]. intros [M _]. specialize (M (tiny (fun c => c = PClass (PlaceholderShown Moz))) tt tt). cbn in M. destruct M as [M _]. destruct (M (conj I eq_refl)) as [_ X]. discriminate X.
  - apply (lost_some pc _ [PClass (CustomClass "-ms-placeholder-shown")]); [reflexivity|]. intros [M _]. specialize (M (tiny (fun c => c = PClass (PlaceholderShown Ms))) tt tt). cbn in M. destruct M as [M _]. destruct (M (conj I eq_refl)) as [_ X]. discriminate X.
Qed.
(** [:nth-child(1 of :scope > a)] is written [:nth-child(1 of > a)], which matches nothing *)
Lemma nth_scope_lost : written_wrong (call "nth-child" ([Nth "1"; Ws; i "of"; Ws] ++ pseudo "scope" ++ [Ws; Delim Gt; Ws; i "a"])) [[NthOf NthChild 0 1 [[Scope; Comb Child; Local "a"]]]].
Proof.
  split; [reflexivity|]. apply (lost_some pc _ [NthOf NthChild 0 1 []]); [reflexivity|]. intros [M _]. specialize (M (tiny (fun _ => True)) tt tt). cbn in M. destruct M as [M _].
  destruct M as [_ []]. split; [exact I|]. left. split; [|exact I]. exists tt. auto.
Qed.
(** A document with two elements, each a child and a descendant of the other but not of itself *)
Definition two : document := Document bool (fun _ x y => x <> y) (fun _ _ => True) (fun _ _ _ P e => P e) (fun _ _ _ P Q H e => H e).
(** [:has(a :scope b)] is written [:has(a b)] *)
Lemma has_scope_lost : written_wrong (call "has" ([i "a"; Ws] ++ pseudo "scope" ++ [Ws; i "b"])) [[Has [[Local "a"; Comb Descendant; Scope; Comb Descendant; Local "b"]]]].
Proof.
  split; [reflexivity|]. apply (lost_some pc _ [Has [[Local "a"; Comb Descendant; Local "b"]]]); [reflexivity|]. intros [_ S]. vm_compute in S. discriminate S.
Qed.
(** [:has( *:scope > a)] is written [:has(:scope > a)], which is read as [:has(> a)] *)
Lemma has_hidden_lost : written_wrong (call "has" ([Delim Star] ++ pseudo "scope" ++ [Ws; Delim Gt; Ws; i "a"])) [[Has [[Univ; Scope; Comb Child; Local "a"]]]].
Proof.
  split; [reflexivity|]. apply (lost_some pc _ [Has [[Scope; Comb Child; Local "a"]]]); [reflexivity|]. intros [M _]. specialize (M two true true). cbn in M. destruct M as [_ M].
  destruct M as [_ (e' & M)].
  - split; [exact I|]. exists false. left. split; [|exact I]. exists true. split; [auto|discriminate].
  - destruct M as [[(x & [[(y & -> & N) _] ->] & _) _]|[]]. contradiction.
Qed.

(** Nested: [:is(&!, .b)] is kept without the selector of the parent and is written [.b], which is read as [& .b] *)
Lemma nested_lost : parse_nested pc (call "is" ([Delim Amp; Junk 7; Comma; Ws] ++ cls "b")) = Some [[Is [[Class "b"]]]] /\ print pc [[Is [[Class "b"]]]] = cls "b" /\
  parse_nested pc (cls "b") = Some [[Nesting; Comb Descendant; Class "b"]] /\ ~ same_meaning [Is [[Class "b"]]] [Nesting; Comb Descendant; Class "b"].
Proof.
  repeat split. intros [M _]. specialize (M (tiny (fun c => c = Class "b")) tt tt). destruct M as [M _]. cbn in M. destruct M as [(e & [_ X] & _) _]; [|discriminate X]. auto.
Qed.
(** Nested: a nesting selector in [:nth-child()] does not count *)
Lemma nested_nth : parse_nested pc (call "nth-child" [Nth "1"; Ws; i "of"; Ws; Delim Amp]) = Some [[Nesting; Comb Descendant; NthOf NthChild 0 1 [[Nesting]]]].
Proof. reflexivity. Qed.
(** [a:is( *.b )] is written [a:is(.b)], which is written [a.b] *)
Lemma twice_differs : exists l l', parse pc ([i "a"] ++ call "is" ([Delim Star] ++ cls "b")) = Some l /\ parse pc (print pc l) = Some l' /\ print pc l' <> print pc l.
Proof. exists [[Local "a"; Is [[Univ; Class "b"]]]], [[Local "a"; Is [[Class "b"]]]]. repeat split. discriminate. Qed.
(** Tokens that are accepted and lost: [&a|] is [&], and [::view-transition-group(a!)] is [::view-transition-group(a)] *)
Lemma tokens_lost : parse pc [Delim Amp; i "a"; Delim Bar] = Some [[Nesting]] /\
  parse pc ([Colon] ++ call "view-transition-group" [i "a"; Junk 7]) = Some [[Comb PseudoElement; PElement (VtFn VtGroup (VtPart (Some (PartName "a")) []))]].
Proof. split; reflexivity. Qed.
