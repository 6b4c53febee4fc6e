(** * Syntax strings: proofs *)
From Coq Require Import List Bool Ascii String Lia.
From Verif Require Import AnimModel SyntaxModel SyntaxSpec.
Import ListNotations.
Local Open Scope string_scope.
Local Arguments space c : simpl never.
Local Arguments ident_start c : simpl never.
Local Arguments name_code_point c : simpl never.

Lemma sapp_assoc a b c : (a ++ b) ++ c = a ++ (b ++ c).
Proof. induction a as [|x a IH]; cbn; [reflexivity|rewrite IH; reflexivity]. Qed.
Lemma sapp_nil a : a ++ "" = a.
Proof. induction a as [|x a IH]; cbn; [reflexivity|rewrite IH; reflexivity]. Qed.
Lemma all_app p a b : all_chars p (a ++ b) <-> all_chars p a /\ all_chars p b.
Proof. induction a as [|x a IH]; cbn; [tauto|]. rewrite IH. tauto. Qed.
Lemma all_imp (p q : ascii -> Prop) s : (forall c, p c -> q c) -> all_chars p s -> all_chars q s.
Proof. intros H. induction s as [|c s IH]; cbn; [tauto|]. intros [A B]. split; [apply H, A|apply IH, B]. Qed.

(** ** Characters *)
Lemma space_white c : white c -> nat_of_ascii c <> 10 -> space c = true.
Proof. unfold space. intros [H|[H|H]] N; rewrite H; try reflexivity. congruence. Qed.
Lemma start_spec c : ident_start c = true <-> is_start c.
Proof.
  unfold ident_start, range, is_start. rewrite !orb_true_iff, !andb_true_iff, !PeanoNat.Nat.leb_le, PeanoNat.Nat.eqb_eq. cbv zeta. split.
  - intros [[[H|H]|H]|H]; try tauto. right. right. right. rewrite <- (ascii_nat_embedding c), H. reflexivity.
  - intros [H|[H|[H| -> ]]]; tauto.
Qed.
Lemma name_spec c : name_code_point c = true <-> is_name c.
Proof.
  unfold name_code_point, range, is_name. rewrite !orb_true_iff, start_spec, andb_true_iff, !PeanoNat.Nat.leb_le, PeanoNat.Nat.eqb_eq. split.
  - intros [[H|H]|H]; try tauto. right. right. rewrite <- (ascii_nat_embedding c), H. reflexivity.
  - intros [H|[H| -> ]]; tauto.
Qed.
Lemma name_not_space c : is_name c -> space c = false.
Proof.
  unfold is_name, is_start, space. cbv zeta. intros [[H|[H|[H| -> ]]]|[H| -> ]]; try reflexivity; apply orb_false_iff; split; apply PeanoNat.Nat.eqb_neq; lia.
Qed.
Lemma white_not_name c : white c -> ~ is_name c.
Proof. intros [H|[H|H]] N; unfold is_name, is_start in N; cbv zeta in N; destruct N as [[N|[N|[N| -> ]]]|[N| -> ]]; cbn in H; try lia. Qed.
Lemma start_not_lt c : is_start c -> Ascii.eqb c "<" = false.
Proof. intros H. apply Ascii.eqb_neq. intros ->. unfold is_start in H. cbn in H. destruct H as [H|[H|[H|H]]]; try lia. discriminate. Qed.
Definition solid (c : ascii) : Prop := space c = false.

(** ** Trimming *)
Definition spaces (s : string) : Prop := all_chars (fun c => space c = true) s.
Lemma blanks_spaces s : blanks s -> no_newline s -> spaces s.
Proof. induction s as [|c s IH]; cbn; [tauto|]. intros [A B] [C D]. split; [apply space_white; assumption|apply IH; assumption]. Qed.
Lemma trim_start_spaces w s : spaces w -> trim_start (w ++ s) = trim_start s.
Proof. induction w as [|c w IH]; cbn; [reflexivity|]. intros [-> H]. apply IH, H. Qed.
Lemma trim_start_solid s : begins solid s -> trim_start s = s.
Proof. destruct s as [|c s]; cbn; [tauto|]. intros ->. reflexivity. Qed.
Lemma trim_end_spaces s : spaces s -> trim_end s = "".
Proof. induction s as [|c s IH]; cbn; [reflexivity|]. intros [A B]. rewrite (IH B), A. reflexivity. Qed.
Lemma trim_end_app a b : trim_end (a ++ b) = match trim_end b with "" => trim_end a | x => a ++ x end.
Proof.
  induction a as [|c a IH]; cbn.
  - destruct (trim_end b); reflexivity.
  - rewrite IH. destruct (trim_end b) as [|x y]; [reflexivity|]. destruct a; reflexivity.
Qed.
Lemma trim_end_solid s : all_chars solid s -> trim_end s = s.
Proof. induction s as [|c s IH]; cbn; [reflexivity|]. intros [A B]. rewrite (IH B). destruct s; [rewrite A|]; reflexivity. Qed.

(** ** Components *)
Lemma types_names n k : In (n, k) types -> data_type n = Some k /\ all_chars solid n /\ all_chars (fun c => c <> ">"%char) n /\ print_kind k = ("<" ++ n ++ ">")%string.
Proof.
  unfold types. cbn [In]. intros H. repeat (destruct H as [H|H]; [injection H as <- <-; repeat split; try reflexivity; discriminate|]). destruct H.
Qed.
Lemma literal_begins s : literal s -> plain_kind (Literal s) -> begins is_start s /\ all_chars is_name s.
Proof.
  intros [[A B] _] N. split; [|exact A]. destruct s as [|c s]; [exact B|]. cbn in N |- *. destruct B as [B|[B _]]; [exact B|destruct (N B)].
Qed.
Lemma kind_solid s k : GKind s k -> all_chars solid s /\ (plain_kind k -> begins solid s /\ begins (fun c => c = "<"%char \/ is_start c) s).
Proof.
  intros [n k' H|n H].
  - destruct (types_names _ _ H) as (_ & A & _). split; [|intros _; split; [reflexivity|left; reflexivity]]. change ("<" ++ n ++ ">") with (String "<" (n ++ ">")). cbn.
    split; [reflexivity|]. apply all_app. split; [exact A|]. cbn. split; [reflexivity|exact I].
  - split; [eapply all_imp; [exact name_not_space|apply H]|]. intros P. destruct (literal_begins _ H P) as [A B]. destruct n as [|c n]; [destruct A|]. cbn in *. split; [apply name_not_space; left; exact A|right; exact A].
Qed.
Lemma split_all p a b : all_chars (fun c => p c = true) a -> ~ begins (fun c => p c = true) b -> split_while p (a ++ b) = (a, b).
Proof.
  intros H N. induction a as [|c a IH]; cbn in *.
  - destruct b as [|c b]; [reflexivity|]. cbn in *. destruct (p c); [congruence|reflexivity].
  - destruct H as [-> H]. rewrite (IH H). reflexivity.
Qed.
Lemma read_kind w s k r : spaces w -> GKind s k -> plain_kind k -> ~ begins is_name r -> parse_kind (w ++ s ++ r) = Some (k, r).
Proof.
  intros W H P R. unfold parse_kind. rewrite (trim_start_spaces _ _ W). destruct (kind_solid _ _ H) as [_ B]. destruct (B P) as [B1 _]. rewrite trim_start_solid by (destruct s; [destruct B1|exact B1]).
  destruct H as [n k H|n H].
  - destruct (types_names _ _ H) as (D & _ & G & _).
    change (("<" ++ n ++ ">") ++ r) with (String "<" ((n ++ ">") ++ r)). cbn [Ascii.eqb Bool.eqb]. rewrite sapp_assoc, split_all.
    + cbn. rewrite D. reflexivity.
    + eapply all_imp; [|exact G]. intros c N. apply negb_true_iff, Ascii.eqb_neq, N.
    + cbn. discriminate.
  - destruct (literal_begins _ H P) as [S A]. destruct n as [|c n]; [destruct S|]. cbn [append]. cbn in S. rewrite (start_not_lt _ S), (proj2 (start_spec c) S).
    change (String c (n ++ r)) with (String c n ++ r). rewrite split_all.
    + reflexivity.
    + eapply all_imp; [|exact A]. intros d. apply name_spec.
    + intros B'. apply R. destruct r as [|d r]; [exact B'|]. cbn in *. apply name_spec, B'.
Qed.
(** What follows a component *)
Definition ends (r : string) : Prop := match r with "" => True | String c _ => white c \/ c = "|"%char end.
Lemma ends_not_name r : ends r -> ~ begins is_name r.
Proof. destruct r as [|c r]; cbn; [tauto|]. intros [H| -> ] N; [exact (white_not_name _ H N)|]. destruct N as [N|[N|N]]; [|cbn in N; lia|discriminate]. unfold is_start in N. cbn in N. destruct N as [N|[N|[N|N]]]; try lia. discriminate. Qed.
Lemma sign_not_name c r : c = "+"%char \/ c = "#"%char -> ~ begins is_name (String c r).
Proof. intros H N. cbn in N. destruct H as [-> | -> ]; (destruct N as [N|[N|N]]; [|cbn in N; lia|discriminate]; unfold is_start in N; cbn in N; destruct N as [N|[N|[N|N]]]; try lia; discriminate). Qed.
Lemma read_component w s c r : spaces w -> GComponent s c -> plain_kind (c_kind c) -> ends r -> parse_component (w ++ s ++ r) = Some (c, r).
Proof.
  intros W H P R. unfold parse_component. destruct H as [s k H|s k H N|s k H N]; cbn in P.
  - rewrite (read_kind _ _ _ _ W H P (ends_not_name _ R)). destruct r as [|c r]; [destruct k; reflexivity|].
    assert (X : c <> "+"%char /\ c <> "#"%char). { split; intros ->; destruct R as [[R|[R|R]]|R]; cbn in R; try lia; discriminate. }
    destruct c as [[] [] [] [] [] [] [] []]; try (destruct k; reflexivity); exfalso; tauto.
  - rewrite sapp_assoc, (read_kind _ _ _ _ W H P); [destruct k; try reflexivity; congruence|]. apply sign_not_name. left. reflexivity.
  - rewrite sapp_assoc, (read_kind _ _ _ _ W H P); [destruct k; try reflexivity; congruence|]. apply sign_not_name. right. reflexivity.
Qed.
Lemma ends_blanks v r : blanks v -> ends r -> ends (v ++ r).
Proof. destruct v as [|c v]; [intros _ H; exact H|]. intros [H _] _. left. exact H. Qed.
Lemma component_solid s c : GComponent s c -> all_chars solid s /\ (plain_kind (c_kind c) -> begins solid s /\ begins (fun c => c = "<"%char \/ is_start c) s).
Proof.
  assert (X : forall s k x, GKind s k -> all_chars solid x -> all_chars solid (s ++ x) /\ (plain_kind k -> begins solid (s ++ x) /\ begins (fun c => c = "<"%char \/ is_start c) (s ++ x))).
  { intros s0 k x H Hx. destruct (kind_solid _ _ H) as [A B]. split; [apply all_app; split; assumption|]. intros P. destruct (B P) as [B1 B2]. destruct s0; [destruct B1|split; [exact B1|exact B2]]. }
  intros H. destruct H as [s k H|s k H N|s k H N].
  - exact (kind_solid _ _ H).
  - apply X; [exact H|]. cbn. split; [reflexivity|exact I].
  - apply X; [exact H|]. cbn. split; [reflexivity|exact I].
Qed.

(** ** Lists of components *)
Lemma no_newline_app a b : no_newline (a ++ b) <-> no_newline a /\ no_newline b.
Proof. apply all_app. Qed.
Lemma read_loop s l : GComponents s l -> no_newline s -> Forall (fun c => plain_kind (c_kind c)) l -> forall fuel, List.length l <= fuel -> parse_loop fuel s = Some l.
Proof.
  induction 1 as [w s v c W H V|w s v c r l W H V _ IH]; intros N P fuel L.
  - destruct fuel as [|fuel]; [cbn in L; lia|]. apply no_newline_app in N. destruct N as [N1 N]. apply no_newline_app in N. destruct N as [_ N2].
    cbn [parse_loop]. rewrite (read_component w s c v); [|apply blanks_spaces; assumption|exact H|exact (Forall_inv P)|].
    + rewrite <- (sapp_nil v), trim_start_spaces by (apply blanks_spaces; assumption). reflexivity.
    + rewrite <- (sapp_nil v). apply ends_blanks; [exact V|exact I].
  - destruct fuel as [|fuel]; [cbn in L; lia|]. apply no_newline_app in N. destruct N as [N1 N]. apply no_newline_app in N. destruct N as [_ N]. apply no_newline_app in N. destruct N as [N2 N]. destruct N as [_ N3].
    cbn [parse_loop]. rewrite (read_component w s c (v ++ "|" ++ r)); [|apply blanks_spaces; assumption|exact H|exact (Forall_inv P)|].
    + rewrite trim_start_spaces by (apply blanks_spaces; assumption). change (trim_start ("|" ++ r)) with (String "|" r). cbv iota. rewrite (IH N3 (Forall_inv_tail P) fuel) by (cbn in L; lia). reflexivity.
    + apply ends_blanks; [exact V|]. right. reflexivity.
Qed.
(** Trimmed at the end, and at the start *)
Lemma components_end s l : GComponents s l -> no_newline s -> trim_end s <> "" /\ GComponents (trim_end s) l.
Proof.
  assert (B0 : blanks "") by exact I.
  assert (NE : forall s c, GComponent s c -> s <> "").
  { intros s0 c0 H. assert (K : forall x k, GKind x k -> x <> "") by (intros x k [n k' _|n [[_ B] _]]; [discriminate|destruct n; [destruct B|discriminate]]).
    destruct H as [x k G|x k G _|x k G _]; [exact (K _ _ G)|destruct x; [destruct (K _ _ G eq_refl)|discriminate]|destruct x; [destruct (K _ _ G eq_refl)|discriminate]]. }
  induction 1 as [w s v c W H V|w s v c r l W H V _ IH]; intros N.
  - apply no_newline_app in N. destruct N as [N1 N]. apply no_newline_app in N. destruct N as [_ N2].
    assert (E : trim_end (w ++ s ++ v) = w ++ s ++ "").
    { rewrite trim_end_app, trim_end_app, (trim_end_spaces v) by (apply blanks_spaces; assumption). destruct (component_solid _ _ H) as [A _]. rewrite (trim_end_solid _ A), sapp_nil.
      pose proof (NE _ _ H). destruct s; [congruence|reflexivity]. }
    rewrite E. split; [|apply gcs_one; assumption]. rewrite sapp_nil. pose proof (NE _ _ H). destruct w, s; cbn; congruence.
  - apply no_newline_app in N. destruct N as [N1 N]. apply no_newline_app in N. destruct N as [_ N]. apply no_newline_app in N. destruct N as [N2 N]. destruct N as [_ N3].
    destruct (IH N3) as [E G].
    assert (X : trim_end (w ++ s ++ v ++ "|" ++ r) = w ++ s ++ v ++ "|" ++ trim_end r).
    { rewrite !trim_end_app. destruct (trim_end r) as [|a b]; [congruence|]. destruct v, s; reflexivity. }
    rewrite X. split; [|apply gcs_more; assumption]. destruct w, s, v; discriminate.
Qed.
Lemma components_start s l : GComponents s l -> no_newline s -> Forall (fun c => plain_kind (c_kind c)) l ->
  GComponents (trim_start s) l /\ no_newline (trim_start s) /\ begins (fun c => c = "<"%char \/ is_start c) (trim_start s).
Proof.
  assert (B0 : blanks "") by exact I.
  intros H N P. destruct H as [w s v c W H V|w s v c r l W H V G]; apply no_newline_app in N; destruct N as [N1 N].
  - destruct (component_solid _ _ H) as [_ B]. destruct (B (Forall_inv P)) as [B1 B2]. rewrite trim_start_spaces by (apply blanks_spaces; assumption).
    rewrite trim_start_solid by (destruct s; [destruct B1|exact B1]). split; [exact (gcs_one "" s v c B0 H V)|]. split; [exact N|]. destruct s; [destruct B2|exact B2].
  - destruct (component_solid _ _ H) as [_ B]. destruct (B (Forall_inv P)) as [B1 B2]. rewrite trim_start_spaces by (apply blanks_spaces; assumption).
    rewrite trim_start_solid by (destruct s; [destruct B1|exact B1]). split; [exact (gcs_more "" s v c r l B0 H V G)|]. split; [exact N|]. destruct s; [destruct B2|exact B2].
Qed.
Lemma trim_end_newline s : no_newline s -> no_newline (trim_end s).
Proof.
  induction s as [|c s IH]; [exact (fun x => x)|]. intros [A B]. cbn. specialize (IH B). destruct (trim_end s) as [|d x].
  - destruct (space c); [exact I|split; [exact A|exact I]].
  - split; [exact A|exact IH].
Qed.
Lemma components_count s l : GComponents s l -> List.length l <= S (String.length s).
Proof.
  assert (X : forall a b, String.length (a ++ b) = String.length a + String.length b) by (intros a b; induction a; cbn; [reflexivity|rewrite IHa; reflexivity]).
  induction 1 as [w s v c W H V|w s v c r l W H V _ IH]; cbn [List.length]; [lia|]. rewrite !X. cbn [String.length]. lia.
Qed.
Theorem syntax_read s d : GSyntax s d -> no_newline s -> plain d -> parse_string s = Some d.
Proof.
  intros H N P. unfold parse_string. cbv zeta. destruct H as [w v W V|s l H].
  - apply no_newline_app in N. destruct N as [N1 N]. apply no_newline_app in N. destruct N as [_ N2].
    rewrite !trim_end_app, (trim_end_spaces v) by (apply blanks_spaces; assumption). cbn [trim_end]. change (space "*") with false. cbv iota.
    rewrite trim_start_spaces by (apply blanks_spaces; assumption). reflexivity.
  - destruct (components_end _ _ H N) as [_ E]. destruct (components_start _ _ E (trim_end_newline _ N) P) as (G & N' & B).
    destruct (trim_start (trim_end s)) as [|c x] eqn:X; [destruct B|].
    replace (String.eqb (String c x) "") with false by reflexivity.
    replace (String.eqb (String c x) "*") with false.
    + rewrite (read_loop _ _ G N' P); [reflexivity|]. apply components_count, G.
    + symmetry. apply String.eqb_neq. intros [= -> _]. destruct B as [B|B]; [discriminate|]. unfold is_start in B. cbn in B. destruct B as [B|[B|[B|B]]]; try lia. discriminate.
Qed.

(** ** Printing *)
Definition printable (c : component) : Prop := GComponent (print_component c) c.
Lemma component_of k m : GKind (print_kind k) k -> (k = TransformList -> m = One) -> printable (Component k m).
Proof.
  intros H N. unfold printable, print_component. cbn [c_kind c_multiplier]. destruct m.
  - rewrite sapp_nil. apply gc_one, H.
  - apply gc_space; [exact H|]. intros ->. discriminate (N eq_refl).
  - apply gc_comma; [exact H|]. intros ->. discriminate (N eq_refl).
Qed.
Lemma kind_print s k : GKind s k -> GKind (print_kind k) k.
Proof. intros [n k' H|n H]; [|apply gk_literal, H]. destruct (types_names _ _ H) as (_ & _ & _ & E). rewrite E. apply gk_type, H. Qed.
Lemma component_print s c : GComponent s c -> printable c.
Proof. intros [s' k H|s' k H N|s' k H N]; apply component_of; try (eapply kind_print; exact H); try reflexivity; congruence. Qed.
Lemma components_space s l : GComponents s l -> GComponents (" " ++ s) l.
Proof. intros [w s' v c W H V|w s' v c r l' W H V G]; [apply (gcs_one (" " ++ w))|apply (gcs_more (" " ++ w))]; try assumption; (split; [right; right; reflexivity|exact W]). Qed.
Lemma components_print minify l : l <> [] -> Forall printable l -> GComponents (print_components minify l) l.
Proof.
  assert (B0 : blanks "") by exact I. assert (B1 : blanks " ") by (split; [right; right; reflexivity|exact I]).
  intros N H. induction H as [|c l H _ IH]; [congruence|]. destruct l as [|d l].
  - cbn [print_components]. rewrite <- (sapp_nil (print_component c)). apply (gcs_one ""); assumption.
  - change (print_components minify (c :: d :: l)) with (print_component c ++ bar minify ++ print_components minify (d :: l)). specialize (IH ltac:(discriminate)).
    destruct minify; cbn [bar].
    + exact (gcs_more "" _ "" c _ _ B0 H B0 IH).
    + exact (gcs_more "" _ " " c _ _ B0 H B1 (components_space _ _ IH)).
Qed.
Theorem syntax_print minify s d : GSyntax s d -> GSyntax (print_syntax minify d) d.
Proof.
  intros H. destruct H as [w v W V|s l H]; [exact (gs_universal "" "" I I)|]. apply gs_components, components_print.
  - destruct H; discriminate.
  - induction H as [w s v c W H V|w s v c r l W H V _ IH]; [constructor; [eapply component_print, H|constructor]|constructor; [eapply component_print, H|exact IH]].
Qed.

(** ** What is accepted *)
Lemma data_type_in n k : data_type n = Some k -> exists m, In (m, k) types.
Proof.
  unfold data_type. intros H.
  repeat match type of H with (if ?b then _ else _) = _ => destruct b; [injection H as <-; eexists; unfold types; cbn [In]; repeat (first [left; reflexivity | right]) | ] end. discriminate.
Qed.
Definition literal_ok (k : kind) : Prop := match k with Literal s => literal s | _ => True end.
Lemma parse_kind_ok s k r : parse_kind s = Some (k, r) -> literal_ok k -> GKind (print_kind k) k.
Proof.
  unfold parse_kind. intros H L. destruct (trim_start s) as [|c x]; [discriminate|]. destruct (Ascii.eqb c "<").
  - destruct (split_while _ x) as [name [|d rest]]; [discriminate|]. destruct (data_type name) as [k'|] eqn:D; [|discriminate]. injection H as <- <-.
    destruct (data_type_in _ _ D) as [m M]. eapply kind_print, gk_type, M.
  - destruct (ident_start c); [|discriminate]. destruct (split_while _ _) as [name rest]. injection H as <- <-. apply gk_literal, L.
Qed.
Lemma parse_component_ok s c r : parse_component s = Some (c, r) -> literal_ok (c_kind c) -> printable c.
Proof.
  unfold parse_component. intros H L. destruct (parse_kind s) as [[k rest]|] eqn:K; [|discriminate].
  assert (X : exists m, c = Component k m /\ (k = TransformList -> m = One)).
  { destruct k; try (destruct rest as [|[[] [] [] [] [] [] [] []] rest]; injection H as <- _; eexists; (split; [reflexivity|discriminate])).
    injection H as <- _. exists One. split; reflexivity. }
  destruct X as (m & -> & N). apply component_of; [|exact N]. exact (parse_kind_ok _ _ _ K L).
Qed.
Lemma parse_loop_ok fuel : forall s l, parse_loop fuel s = Some l -> Forall (fun c => literal_ok (c_kind c)) l -> l <> [] /\ Forall printable l.
Proof.
  induction fuel as [|fuel IH]; intros s l H L; [discriminate|]. cbn [parse_loop] in H. destruct (parse_component s) as [[c rest]|] eqn:C; [|discriminate].
  assert (X : l = [c] \/ exists rest' l', parse_loop fuel rest' = Some l' /\ l = c :: l').
  { destruct (trim_start rest) as [|d x]; [left; congruence|]. right.
    assert (Y : option_map (cons c) (parse_loop fuel x) = Some l). { destruct d as [[] [] [] [] [] [] [] []]; try discriminate. exact H. }
    destruct (parse_loop fuel x) as [l'|] eqn:E; [|discriminate]. injection Y as <-. exists x, l'. split; [exact E|reflexivity]. }
  destruct X as [-> |(rest' & l' & E & -> )].
  - split; [discriminate|]. constructor; [|constructor]. exact (parse_component_ok _ _ _ C (Forall_inv L)).
  - split; [discriminate|]. constructor; [exact (parse_component_ok _ _ _ C (Forall_inv L))|]. apply (IH _ _ E (Forall_inv_tail L)).
Qed.
Theorem syntax_accepted minify s d : parse_string s = Some d -> literals_ok d -> GSyntax (print_syntax minify d) d.
Proof.
  unfold parse_string. cbv zeta. intros H L. destruct (String.eqb _ ""); [discriminate|]. destruct (String.eqb _ "*"); [injection H as <-; exact (gs_universal "" "" I I)|].
  destruct (parse_loop _ _) as [l|] eqn:E; [|discriminate]. injection H as <-. apply gs_components. destruct (parse_loop_ok _ _ _ E L) as [N F]. apply components_print; assumption.
Qed.
