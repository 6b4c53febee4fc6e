(** * A value has one meaning *)
From Coq Require Import List Bool QArith ZArith Ascii String Lia.
From Verif Require Import AnimModel GridModel GridSpec GridReadProofs GridTemplateProofs GridVarProofs GridPrintProofs.
Import ListNotations.
Local Open Scope nat_scope.
Local Open Scope string_scope.
Local Open Scope list_scope.
Local Arguments is_kw kw s : simpl never.
Local Arguments reserved s : simpl never.
Local Arguments parse_string s : simpl never.

Lemma pairs_eq {A B} (l l' : list (A * B)) : map fst l = map fst l' -> map snd l = map snd l' -> l = l'.
Proof. revert l'. induction l as [|[a b] l IH]; intros [|[a' b'] l']; cbn; try discriminate; [reflexivity|]. intros [= -> E] [= -> F]. rewrite (IH _ E F). reflexivity. Qed.
Lemma item_inj t t' : item_of t = item_of t' -> t = t'.
Proof.
  destruct t as [s|c [n l]], t' as [s'|c' [n' l']]; cbn; try discriminate; [congruence|]. intros [= -> -> E F]. rewrite (pairs_eq _ _ F E). reflexivity.
Qed.
Lemma tracks_inj s s' : tracks_val s = tracks_val s' -> s = s'.
Proof.
  destruct s as [n l], s' as [n' l']. unfold tracks_val. cbn [fst snd]. intros [= -> E F]. f_equal. apply pairs_eq; [|exact E]. clear E. revert l' F.
  induction l as [|[t m] l IH]; intros [|[t' m'] l']; cbn; try discriminate; [reflexivity|]. intros [= E F]. rewrite (item_inj _ _ E), (IH _ F). reflexivity.
Qed.
Lemma sizing_inj o o' : sizing_val o = sizing_val o' -> o = o'.
Proof. destruct o, o'; cbn; try discriminate; [|reflexivity]. intros [= E]. f_equal. apply tracks_inj. unfold tracks_val. congruence. Qed.
Lemma sizing_once l o l' o' r r' : GSizing l o -> GSizing l' o' -> stops parse_item r -> stops parse_item r' -> l ++ r = l' ++ r' -> o = o' /\ r = r'.
Proof.
  intros H H' S S' E. pose proof (read_sizing _ _ _ H S) as P. pose proof (read_sizing _ _ _ H' S') as P'. rewrite E, P' in P. injection P as P Q. split; [symmetry; apply sizing_inj, P|congruence].
Qed.
Lemma sizing_once0 l o o' : GSizing l o -> GSizing l o' -> o = o'.
Proof. intros H H'. eapply (sizing_once l o l o' [] []); try eassumption; try exact I. reflexivity. Qed.
Lemma sizes_once l s s' : Forall2 GSize l s -> Forall2 GSize l s' -> s = s'.
Proof.
  intros H. revert s'. induction H as [|t z l s H _ IH]; intros s' H'; inversion H' as [|t' z' l' s2 G G' E1 E2]; subst; [reflexivity|]. rewrite (IH _ G'). apply read_size in H, G. congruence.
Qed.
Lemma sizes_opt_once l s s' : GSizesOpt l s -> GSizesOpt l s' -> s = s'.
Proof.
  intros H. revert s'. destruct H as [|l s [G N]]; intros s' H'.
  - inversion H' as [|l' s2 [G' N'] E1 E2]; subst; [reflexivity|]. inversion G'; subst. congruence.
  - inversion H' as [E1 E2|l' s2 [G' N'] E1 E2]; subst; [inversion G; subst; congruence|]. eapply sizes_once; eassumption.
Qed.
Lemma areas_inj a a' : (match a with Some r => area_rows r | None => True end) -> (match a' with Some r => area_rows r | None => True end) -> areas_val a = areas_val a' -> a = a'.
Proof.
  destruct a as [a|], a' as [a'|]; cbn; try discriminate; [|reflexivity]. intros H H' [= E F]. rewrite <- (rows_of_ok _ H), <- (rows_of_ok _ H'), E, F. reflexivity.
Qed.
Lemma areas_once l a a' : GAreas l a -> GAreas l a' -> a = a'.
Proof.
  intros H H'. pose proof (read_areas _ _ H) as P. rewrite (read_areas _ _ H') in P. injection P as P. symmetry. apply areas_inj; [| |exact P].
  - inversion H'; subst; [exact I|assumption].
  - inversion H; subst; [exact I|assumption].
Qed.

(** ** Templates *)
Lemma rows_result l rows rest : GRows l rows -> area_rows (map w_cells rows) -> ends rest ->
  template_loop (S (List.length (l ++ rest))) (Rows [] [] 0 []) (l ++ rest)
  = Some (Rows (names_result [] rows) (map w_size rows) (columns_of (map w_cells rows)) (List.concat (map w_cells rows)), rest)
  /\ (exists c cs, List.concat (map w_cells rows) = c :: cs).
Proof.
  intros H (Hr & Hn & _) He. destruct rows as [|r rows]; [cbn in Hr; congruence|].
  destruct (rows_word _ _ rest H ltac:(discriminate)) as (t & x & E & _ & F).
  assert (C : Forall (fun x => List.length (w_cells x) = columns_of (map w_cells (r :: rows)) /\ w_cells x <> []) (r :: rows)).
  { revert Hn. generalize (columns_of (map w_cells (r :: rows))). generalize (r :: rows). clear. intros l n H. induction l; constructor; [exact (Forall_inv H)|apply IHl, (Forall_inv_tail H)]. }
  split.
  - rewrite (read_rows _ _ eq_refl l H _ _ rest _ C) by (try assumption; cbn; congruence). reflexivity.
  - cbn [map List.concat]. pose proof (Forall_inv C) as [_ N]. destruct (w_cells r) as [|c cs]; [congruence|]. do 2 eexists. reflexivity.
Qed.
Lemma tracks_of_eq rows rows' : rows <> [] -> rows' <> [] -> names_result [] rows = names_result [] rows' -> map w_size rows = map w_size rows' -> tracks_of rows = tracks_of rows'.
Proof.
  destruct rows as [|r rows]; [congruence|]. destruct rows' as [|r' rows']; [congruence|]. intros _ _ E F.
  assert (L : List.length (map snd (tracks_after (r :: rows))) = List.length (map snd (tracks_after (r' :: rows')))).
  { rewrite !map_length, !tracks_after_length. apply (f_equal (@List.length _)) in F. rewrite !map_length in F. exact F. }
  assert (X : map fst (tracks_after (r :: rows)) = map fst (tracks_after (r' :: rows'))).
  { assert (Y : forall q, map fst (tracks_after q) = map TSize (map w_size q)). { induction q as [|x q IH]; [reflexivity|]. cbn. rewrite IH. reflexivity. }
    rewrite !Y, F. reflexivity. }
  rewrite !names_result_nil in E. unfold tracks_of. remember (map snd (tracks_after (r :: rows))) as A. remember (map snd (tracks_after (r' :: rows'))) as A'.
  assert (Z : names_before r = names_before r' /\ A = A').
  { unfold names_before. destruct (w_before r) as [n|], (w_before r') as [n'|]; cbn [app] in E.
    - injection E as -> ->. split; reflexivity.
    - apply (f_equal (@List.length _)) in E. cbn in E. lia.
    - apply (f_equal (@List.length _)) in E. cbn in E. lia.
    - split; [reflexivity|exact E]. }
  destruct Z as [-> Z]. f_equal. apply pairs_eq; [exact X|]. congruence.
Qed.
Lemma rows_once l rows rest l' rows' rest' : GRows l rows -> area_rows (map w_cells rows) -> ends rest -> GRows l' rows' -> area_rows (map w_cells rows') -> ends rest' ->
  l ++ rest = l' ++ rest' -> tracks_of rows = tracks_of rows' /\ map w_cells rows = map w_cells rows' /\ rest = rest'.
Proof.
  intros H A E H' A' E' El. destruct (rows_result _ _ _ H A E) as [P _]. destruct (rows_result _ _ _ H' A' E') as [P' _]. rewrite El, P' in P.
  injection P as P1 P2 P3 P4 P5. split; [|split].
  - apply tracks_of_eq; [destruct A as [A _]; intros ->; apply A; reflexivity|destruct A' as [A' _]; intros ->; apply A'; reflexivity|congruence|congruence].
  - rewrite <- (rows_of_ok _ A), <- (rows_of_ok _ A'). congruence.
  - congruence.
Qed.
Lemma rows_not_tracks l rows rest a r b : GRows l rows -> area_rows (map w_cells rows) -> ends rest -> GSizing a r -> l ++ rest = a ++ Slash :: b -> False.
Proof.
  intros H A E Ha El. destruct Ha as [s Es|a s Ha].
  - destruct (rows_word l rows rest H) as (t & x & Et & Ew & _); [destruct A as [A _]; intros ->; apply A; reflexivity|]. rewrite El in Et. injection Et as <- _.
    cbn in Ew. rewrite (is_kw_true _ _ Es) in Ew. discriminate.
  - destruct (rows_result _ _ _ H A E) as [P (c & cs & C)]. destruct (strip_no_rows a s (Slash :: b) Ha) as (ns & rr & T). rewrite El, T in P. injection P as _ _ _ P _. congruence.
Qed.
Lemma none_not_tracks s a r b : Is "none" s -> GSizing a r -> [Word s] = a ++ Slash :: b -> False.
Proof. intros _ H E. destruct a as [|t [|u a]]; cbn in E; try discriminate. Qed.
Lemma none_not_rows s l rows rest : Is "none" s -> GRows l rows -> area_rows (map w_cells rows) -> [Word s] = l ++ rest -> False.
Proof.
  intros Es H A E. destruct (rows_word l rows rest H) as (t & x & Et & Ew & _); [destruct A as [A _]; intros ->; apply A; reflexivity|]. rewrite <- E in Et. injection Et as <- _.
  cbn in Ew. rewrite (is_kw_true _ _ Es) in Ew. discriminate.
Qed.
(** The forms of templates *)
Lemma template_once l t : GTemplate l t -> forall l' t', GTemplate l' t' -> l = l' -> t = t'.
Proof.
  assert (NIL : forall q : list tok, q = q ++ []) by (intros; symmetry; apply app_nil_r).
  intros H. destruct H as [s E|a b r c Ha Hb|l rows Hl Hc|l rows b c Hl Hc Hb Hx]; intros l' t' H' El; destruct H' as [s' E'|a' b' r' c' Ha' Hb'|l' rows' Hl' Hc'|l' rows' b' c' Hl' Hc' Hb' Hx'].
  - reflexivity.
  - destruct (none_not_tracks _ _ _ _ E Ha' El).
  - rewrite (NIL l') in El. destruct (none_not_rows _ _ _ _ E Hl' Hc' El).
  - destruct (none_not_rows _ _ _ _ E Hl' Hc' El).
  - destruct (none_not_tracks _ _ _ _ E' Ha (eq_sym El)).
  - destruct (sizing_once _ _ _ _ _ _ Ha Ha' (slash_stops b) (slash_stops b') El) as [<- [= <-]]. rewrite (sizing_once0 _ _ _ Hb Hb'). reflexivity.
  - rewrite (NIL l') in El. destruct (rows_not_tracks _ _ [] _ _ _ Hl' Hc' I Ha (eq_sym El)).
  - destruct (rows_not_tracks _ _ (Slash :: b') _ _ _ Hl' Hc' eq_refl Ha (eq_sym El)).
  - rewrite (NIL l) in El. destruct (none_not_rows _ _ _ _ E' Hl Hc (eq_sym El)).
  - rewrite (NIL l) in El. destruct (rows_not_tracks _ _ [] _ _ _ Hl Hc I Ha' El).
  - rewrite (NIL l), (NIL l') in El. destruct (rows_once _ _ [] _ _ [] Hl Hc I Hl' Hc' I El) as (-> & -> & _). reflexivity.
  - rewrite (NIL l) in El. destruct (rows_once _ _ [] _ _ (Slash :: b') Hl Hc I Hl' Hc' eq_refl El) as (_ & _ & X). discriminate.
  - destruct (none_not_rows _ _ _ _ E' Hl Hc (eq_sym El)).
  - destruct (rows_not_tracks _ _ (Slash :: b) _ _ _ Hl Hc eq_refl Ha' El).
  - rewrite (NIL l') in El. destruct (rows_once _ _ (Slash :: b) _ _ [] Hl Hc eq_refl Hl' Hc' I El) as (_ & _ & X). discriminate.
  - destruct (rows_once _ _ (Slash :: b) _ _ (Slash :: b') Hl Hc eq_refl Hl' Hc' eq_refl El) as (-> & -> & [= <-]).
    rewrite (sizing_once0 _ _ _ (gz_strip _ _ Hb) (gz_strip _ _ Hb')). reflexivity.
Qed.
(** Templates have no [auto-flow] *)
Lemma template_not_rows l t a r f d z : GTemplate l t -> GSizing a r -> GAutoFlow f d -> l = a ++ Slash :: f ++ z -> False.
Proof.
  intros H Ha Hf El. destruct H as [s E|a' b' r' c' Ha' Hb'|l rows Hl Hc|l rows b c Hl Hc Hb Hx].
  - exact (none_not_tracks _ _ _ _ E Ha El).
  - destruct (sizing_once _ _ _ _ _ _ Ha' Ha (slash_stops _) (slash_stops _) El) as [_ [= ->]]. pose proof (read_sizing _ _ [] Hb' I) as P. rewrite app_nil_r, (flow_no_sizing _ _ _ Hf) in P. discriminate.
  - rewrite <- (app_nil_r l) in El. exact (rows_not_tracks _ _ [] _ _ _ Hl Hc I Ha El).
  - exact (rows_not_tracks _ _ (Slash :: b) _ _ _ Hl Hc eq_refl Ha El).
Qed.
Lemma template_not_columns l t f d z : GTemplate l t -> GAutoFlow f d -> l = f ++ z -> False.
Proof.
  intros H Hf El. destruct (flow_no_tracks _ _ z Hf) as (E & (u & x & Eu & Ew) & L). rewrite <- El in *. destruct H as [s Es|a' b' r' c' Ha' Hb'|l rows Hl Hc|l rows b c Hl Hc Hb Hx].
  - injection Eu as <- _. cbn in Ew. rewrite (is_kw_true _ _ Es) in Ew. discriminate.
  - pose proof (read_sizing _ _ _ Ha' (slash_stops b')) as P. rewrite El, (flow_no_sizing _ _ _ Hf) in P. discriminate.
  - destruct (rows_result l rows [] Hl Hc I) as [P (c & cs & C)]. rewrite app_nil_r, L in P. injection P as _ _ _ P _. congruence.
  - destruct (rows_result l rows (Slash :: b) Hl Hc eq_refl) as [P (c' & cs & C)]. rewrite L in P. injection P as _ _ _ P _. congruence.
Qed.
Lemma sizes_val_inj s s' : s <> [] -> s' <> [] -> sizes_val s = sizes_val s' -> s = s'.
Proof.
  assert (A : forall s, sizes_val s = [] -> s <> [] -> s = [Breadth BAuto]). { intros x E N. apply no_sizes_val; [rewrite E; reflexivity|exact N]. }
  assert (B : forall s, sizes_val s <> [] -> sizes_val s = s). { intros [|z [|y x]]; try reflexivity. cbn. destruct (is_auto z); congruence. }
  intros N N' E. destruct (sizes_val s) as [|z x] eqn:F.
  - rewrite (A s F N). symmetry. apply A; [congruence|exact N'].
  - rewrite <- (B s), <- (B s'); congruence.
Qed.
Lemma flow_not_dense z sizes r : GSizesOpt z sizes -> match z ++ Slash :: r with [] => True | t :: _ => word "dense" t = false end.
Proof. intros H. eapply sizes_not_dense; [eassumption|reflexivity]. Qed.
Lemma opt_nonempty z s : GSizesOpt z s -> s <> [].
Proof. intros H. destruct H as [|l s [_ N]]; [discriminate|exact N]. Qed.
Lemma grid_once l g : GGrid l g -> forall l' g', GGrid l' g' -> l = l' -> g = g'.
Proof.
  intros H. destruct H as [l t H|a r f d z sizes Ha Hf Hz|f d z sizes b c Hf Hz Hb]; intros l' g' H' El; destruct H' as [l' t' H'|a' r' f' d' z' sizes' Ha' Hf' Hz'|f' d' z' sizes' b' c' Hf' Hz' Hb'].
  - rewrite (template_once _ _ H _ _ H' El). reflexivity.
  - destruct (template_not_rows _ _ _ _ _ _ _ H Ha' Hf' El).
  - destruct (template_not_columns _ _ _ _ _ H Hf' El).
  - destruct (template_not_rows _ _ _ _ _ _ _ H' Ha Hf (eq_sym El)).
  - destruct (sizing_once _ _ _ _ _ _ Ha Ha' (slash_stops _) (slash_stops _) El) as [<- [= E]].
    assert (D : forall z s, GSizesOpt z s -> match z with [] => True | t :: _ => word "dense" t = false end) by (intros ? ? Q; pose proof (sizes_not_dense _ _ [] Q I) as X; rewrite app_nil_r in X; exact X).
    pose proof (read_auto_flow true _ _ _ Hf (D _ _ Hz)) as P. rewrite E, (read_auto_flow true _ _ _ Hf' (D _ _ Hz')) in P. injection P as <- <-.
    rewrite (sizes_opt_once _ _ _ Hz Hz'). reflexivity.
  - pose proof (read_sizing _ _ _ Ha (slash_stops (f ++ z))) as P. rewrite El, (flow_no_sizing _ _ _ Hf') in P. discriminate.
  - destruct (template_not_columns _ _ _ _ _ H' Hf (eq_sym El)).
  - pose proof (read_sizing _ _ _ Ha' (slash_stops (f' ++ z'))) as P. rewrite <- El, (flow_no_sizing _ _ _ Hf) in P. discriminate.
  - pose proof (read_auto_flow false _ _ _ Hf (flow_not_dense _ _ b Hz)) as P. rewrite El, (read_auto_flow false _ _ _ Hf' (flow_not_dense _ _ b' Hz')) in P. injection P as <- E.
    pose proof (read_sizes_opt _ _ (Slash :: b) Hz eq_refl) as Q. rewrite <- E, (read_sizes_opt _ _ (Slash :: b') Hz' eq_refl) in Q. injection Q as Q <-.
    rewrite (sizes_val_inj _ _ (opt_nonempty _ _ Hz) (opt_nonempty _ _ Hz') (eq_sym Q)), (sizing_once0 _ _ _ Hb Hb'). reflexivity.
Qed.
Lemma flow_once l f f' : GFlow l f -> GFlow l f' -> f = f'.
Proof. intros H H'. inversion H; subst; inversion H'; subst; try reflexivity; unfold Is in *; congruence. Qed.

(** ** Lines *)
Inductive Shape : list tok -> line -> Prop :=
| sh_auto s : Is "auto" s -> Shape [Word s] LAuto
| sh_area n : css_name n -> Shape [Word n] (LArea n)
| sh_int z : Shape [Int z] (LLine z None)
| sh_both z n : css_name n -> Shape [Int z; Word n] (LLine z (Some n))
| sh_first z n : css_name n -> Shape [Word n; Int z] (LLine z (Some n))
| sh_1 s z : Is "span" s -> Shape [Word s; Int z] (LSpan z None)
| sh_2 s n : Is "span" s -> css_name n -> Shape [Word s; Word n] (LSpan 1 (Some n))
| sh_3 s z n : Is "span" s -> css_name n -> Shape [Word s; Int z; Word n] (LSpan z (Some n))
| sh_4 s z n : Is "span" s -> css_name n -> Shape [Word s; Word n; Int z] (LSpan z (Some n))
| sh_5 s z : Is "span" s -> Shape [Int z; Word s] (LSpan z None)
| sh_6 s n : Is "span" s -> css_name n -> Shape [Word n; Word s] (LSpan 1 (Some n))
| sh_7 s z n : Is "span" s -> css_name n -> Shape [Int z; Word n; Word s] (LSpan z (Some n))
| sh_8 s z n : Is "span" s -> css_name n -> Shape [Word n; Int z; Word s] (LSpan z (Some n)).
Lemma shape l y : GLine l y -> Shape l y.
Proof. intros H. destruct H as [| | | | |s l x E H|s l x E H]; try (constructor; assumption); destruct H; cbn; constructor; assumption. Qed.
Lemma name_not_auto s : css_name s -> ~ Is "auto" s.
Proof. unfold css_name. rewrite Forall_forall. intros H. apply H. cbn. tauto. Qed.
Lemma name_not_span s : css_name s -> ~ Is "span" s.
Proof. unfold css_name. rewrite Forall_forall. intros H. apply H. cbn. tauto. Qed.
Lemma line_once l y y' : GLine l y -> GLine l y' -> y = y'.
Proof.
  intros H H'. apply shape in H, H'. inversion H; subst; inversion H'; subst; try reflexivity; exfalso;
  match goal with N : css_name ?s, E : Is "auto" ?s |- _ => exact (name_not_auto _ N E) | N : css_name ?s, E : Is "span" ?s |- _ => exact (name_not_span _ N E) end.
Qed.
Lemma line_no_slash l y : GLine l y -> ~ In Slash l.
Proof. intros H. apply shape in H. destruct H; cbn; intuition discriminate. Qed.
Lemma slash_split (l m l' m' : list tok) : ~ In Slash l -> ~ In Slash l' -> l ++ Slash :: m = l' ++ Slash :: m' -> l = l' /\ m = m'.
Proof.
  revert l'. induction l as [|t l IH]; intros [|t' l'] N N' E; cbn in *.
  - injection E as ->. split; reflexivity.
  - injection E as E _. exfalso. apply N'. left. congruence.
  - injection E as E _. exfalso. apply N. left. congruence.
  - injection E as -> E. destruct (IH l') as [-> ->]; [tauto|tauto|exact E|]. split; reflexivity.
Qed.
Lemma slash_none (l l' m' : list tok) : ~ In Slash l -> l = l' ++ Slash :: m' -> False.
Proof. intros N ->. apply N, in_or_app. right. left. reflexivity. Qed.
Lemma pair_once l p p' : GPair l p -> GPair l p' -> p = p'.
Proof.
  intros H. revert p'. destruct H as [l a Ha|l a m b Ha Hb]; intros p' H'.
  - inversion H' as [l' a' Ha' E1 E2|l' a' m' b' Ha' Hb' E1 E2]; subst.
    + rewrite (line_once _ _ _ Ha Ha'). reflexivity.
    + destruct (slash_none _ _ _ (line_no_slash _ _ Ha) eq_refl).
  - inversion H' as [l' a' Ha' E1 E2|l' a' m' b' Ha' Hb' E1 E2]; subst.
    + destruct (slash_none _ _ _ (line_no_slash _ _ Ha') eq_refl).
    + destruct (slash_split _ _ _ _ (line_no_slash _ _ Ha') (line_no_slash _ _ Ha) E1) as [-> ->]. rewrite (line_once _ _ _ Ha Ha'), (line_once _ _ _ Hb Hb'). reflexivity.
Qed.
Inductive Seq : list tok -> list line -> Prop :=
| sq_one l a : GLine l a -> Seq l [a]
| sq_more l a m s : GLine l a -> Seq m s -> Seq (l ++ Slash :: m) (a :: s).
Lemma seq_once l s : Seq l s -> forall s', Seq l s' -> s = s'.
Proof.
  induction 1 as [l a Ha|l a m s Ha Hs IH]; intros s' H'.
  - inversion H' as [l' a' Ha' E1 E2|l' a' m' b' Ha' Hb' E1 E2]; subst; [rewrite (line_once _ _ _ Ha Ha'); reflexivity|]. destruct (slash_none _ _ _ (line_no_slash _ _ Ha) eq_refl).
  - inversion H' as [l' a' Ha' E1 E2|l' a' m' b' Ha' Hb' E1 E2]; subst; [destruct (slash_none _ _ _ (line_no_slash _ _ Ha') eq_refl)|].
    destruct (slash_split _ _ _ _ (line_no_slash _ _ Ha') (line_no_slash _ _ Ha) E1) as [-> ->]. rewrite (line_once _ _ _ Ha Ha'), (IH _ Hb'). reflexivity.
Qed.
Definition four_of (s : list line) : option (line * line * line * line) :=
  match s with
  | [a] => Some (a, opposite a, opposite a, opposite a)
  | [a; b] => Some (a, b, opposite a, opposite b)
  | [a; b; c] => Some (a, b, c, opposite b)
  | [a; b; c; d] => Some (a, b, c, d)
  | _ => None
  end.
Lemma four_seq l q : GFour l q -> exists s, Seq l s /\ four_of s = Some q.
Proof.
  intros H. destruct H.
  - exists [a]. split; [apply sq_one; assumption|reflexivity].
  - exists [a; b]. split; [apply sq_more; [assumption|apply sq_one; assumption]|reflexivity].
  - exists [a; b; c]. split; [apply sq_more; [assumption|apply sq_more; [assumption|apply sq_one; assumption]]|reflexivity].
  - exists [a; b; c; d]. split; [apply sq_more; [assumption|apply sq_more; [assumption|apply sq_more; [assumption|apply sq_one; assumption]]]|reflexivity].
Qed.
Lemma four_once l p p' : GFour l p -> GFour l p' -> p = p'.
Proof. intros H H'. destruct (four_seq _ _ H) as (s & S & E). destruct (four_seq _ _ H') as (s' & S' & E'). rewrite (seq_once _ _ S _ S') in E. congruence. Qed.

(** ** No [var()] *)
Lemma sizing_clean l o : GSizing l o -> ~ HasVar l.
Proof. intros H. apply cl_nil. pose proof (read_sizing _ _ [] H I) as P. rewrite app_nil_r in P. eapply sizing_cl, P. Qed.
Lemma clean_slash a b : ~ HasVar a -> ~ HasVar b -> ~ HasVar (a ++ Slash :: b).
Proof. intros H H' V. apply hv_app in V. destruct V as [V|V]; [tauto|]. apply hv_cons in V. destruct V as [V|V]; [exact (slash_flat V)|tauto]. Qed.
Lemma rows_clean l rows rest : GRows l rows -> area_rows (map w_cells rows) -> ends rest -> ~ HasVar rest -> ~ HasVar (l ++ rest).
Proof. intros H A E N V. destruct (rows_result _ _ _ H A E) as [P _]. apply template_loop_cl in P. destruct P as (x & Ex & Nx). rewrite Ex in V. apply hv_app in V. tauto. Qed.
Lemma template_clean l t : GTemplate l t -> ~ HasVar l.
Proof.
  intros H. destruct H as [s E|a b r c Ha Hb|l rows Hl Hc|l rows b c Hl Hc Hb Hx].
  - apply hv_flat. exact I.
  - apply clean_slash; eapply sizing_clean; eassumption.
  - rewrite <- (app_nil_r l). eapply rows_clean; [eassumption|eassumption|exact I|exact hv_nil].
  - eapply rows_clean; [eassumption|eassumption|reflexivity|]. intros V. apply hv_cons in V. destruct V as [V|V]; [exact (slash_flat V)|]. exact (sizing_clean _ _ (gz_strip _ _ Hb) V).
Qed.
Lemma words_clean l : Forall flat l -> ~ HasVar l.
Proof. induction 1 as [|t l H _ IH]; [exact hv_nil|]. intros V. apply hv_cons in V. destruct V as [V|V]; [exact (hv_flat _ H V)|exact (IH V)]. Qed.
Lemma auto_flow_clean l d : GAutoFlow l d -> ~ HasVar l.
Proof. intros H. apply words_clean. destruct H; repeat constructor. Qed.
Lemma sizes_clean l s : Forall2 GSize l s -> ~ HasVar l.
Proof. induction 1 as [|t z l s H _ IH]; [exact hv_nil|]. intros V. apply hv_cons in V. destruct V as [V|V]; [exact (size_cl _ _ (read_size _ _ H) V)|exact (IH V)]. Qed.
Lemma sizes_opt_clean l s : GSizesOpt l s -> ~ HasVar l.
Proof. intros H. destruct H as [|l s [H _]]; [exact hv_nil|eapply sizes_clean, H]. Qed.
Lemma app_clean a b : ~ HasVar a -> ~ HasVar b -> ~ HasVar (a ++ b).
Proof. intros H H' V. apply hv_app in V. tauto. Qed.
Lemma grid_clean l g : GGrid l g -> ~ HasVar l.
Proof.
  intros H. destruct H as [l t H|a r f d z sizes Ha Hf Hz|f d z sizes b c Hf Hz Hb].
  - eapply template_clean, H.
  - apply clean_slash; [eapply sizing_clean, Ha|]. apply app_clean; [eapply auto_flow_clean, Hf|eapply sizes_opt_clean, Hz].
  - apply app_clean; [eapply auto_flow_clean, Hf|]. apply clean_slash; [eapply sizes_opt_clean, Hz|eapply sizing_clean, Hb].
Qed.
Lemma line_clean l y : GLine l y -> ~ HasVar l.
Proof. intros H. apply words_clean. apply shape in H. destruct H; repeat constructor. Qed.
Lemma pair_clean l y : GPair l y -> ~ HasVar l.
Proof. intros H. destruct H; [eapply line_clean; eassumption|apply clean_slash; eapply line_clean; eassumption]. Qed.
Lemma four_clean l y : GFour l y -> ~ HasVar l.
Proof. intros H. destruct (four_seq _ _ H) as (s & S & _). clear H. induction S; [eapply line_clean; eassumption|apply clean_slash; [eapply line_clean; eassumption|assumption]]. Qed.
Lemma areas_clean l a : GAreas l a -> ~ HasVar l.
Proof. intros H. apply cl_nil. eapply areas_cl, read_areas, H. Qed.
Lemma flow_clean l f : GFlow l f -> ~ HasVar l.
Proof. intros H. apply words_clean. destruct H; repeat constructor. Qed.

Theorem value_once p l vs vs' : GValue p l vs -> GValue p l vs' -> vs = vs'.
Proof.
  intros H H'. destruct H as [l s H|l s H|l a H|l s H|l s H|l f H|l t H|l g H|l a H|l a H|l a H|l a H|l a b H|l a b H|l a b c d H|p l H].
  - inversion H' as [? s' G| | | | | | | | | | | | | | |? ? G]; subst; [rewrite (sizing_once0 _ _ _ H G); reflexivity|destruct (sizing_clean _ _ H G)].
  - inversion H' as [|? s' G| | | | | | | | | | | | | |? ? G]; subst; [rewrite (sizing_once0 _ _ _ H G); reflexivity|destruct (sizing_clean _ _ H G)].
  - inversion H' as [| |? s' G| | | | | | | | | | | | |? ? G]; subst; [rewrite (areas_once _ _ _ H G); reflexivity|destruct (areas_clean _ _ H G)].
  - inversion H' as [| | |? s' G| | | | | | | | | | | |? ? G]; subst; [rewrite (sizes_once _ _ _ (proj1 H) (proj1 G)); reflexivity|destruct (sizes_clean _ _ (proj1 H) G)].
  - inversion H' as [| | | |? s' G| | | | | | | | | | |? ? G]; subst; [rewrite (sizes_once _ _ _ (proj1 H) (proj1 G)); reflexivity|destruct (sizes_clean _ _ (proj1 H) G)].
  - inversion H' as [| | | | |? s' G| | | | | | | | | |? ? G]; subst; [rewrite (flow_once _ _ _ H G); reflexivity|destruct (flow_clean _ _ H G)].
  - inversion H' as [| | | | | |? s' G| | | | | | | | |? ? G]; subst; [rewrite (template_once _ _ H _ _ G eq_refl); reflexivity|destruct (template_clean _ _ H G)].
  - inversion H' as [| | | | | | |? s' G| | | | | | | |? ? G]; subst; [rewrite (grid_once _ _ H _ _ G eq_refl); reflexivity|destruct (grid_clean _ _ H G)].
  - inversion H' as [| | | | | | | |? s' G| | | | | | |? ? G]; subst; [rewrite (line_once _ _ _ H G); reflexivity|destruct (line_clean _ _ H G)].
  - inversion H' as [| | | | | | | | |? s' G| | | | | |? ? G]; subst; [rewrite (line_once _ _ _ H G); reflexivity|destruct (line_clean _ _ H G)].
  - inversion H' as [| | | | | | | | | |? s' G| | | | |? ? G]; subst; [rewrite (line_once _ _ _ H G); reflexivity|destruct (line_clean _ _ H G)].
  - inversion H' as [| | | | | | | | | | |? s' G| | | |? ? G]; subst; [rewrite (line_once _ _ _ H G); reflexivity|destruct (line_clean _ _ H G)].
  - inversion H' as [| | | | | | | | | | | |? ? ? G| | |? ? G]; subst; [pose proof (pair_once _ _ _ H G); congruence|destruct (pair_clean _ _ H G)].
  - inversion H' as [| | | | | | | | | | | | |? ? ? G| |? ? G]; subst; [pose proof (pair_once _ _ _ H G); congruence|destruct (pair_clean _ _ H G)].
  - inversion H' as [| | | | | | | | | | | | | |? ? ? ? ? G|? ? G]; subst; [pose proof (four_once _ _ _ H G); congruence|destruct (four_clean _ _ H G)].
  - inversion H'; subst; try reflexivity; exfalso;
    first [eapply sizing_clean; eassumption | eapply areas_clean; eassumption | eapply flow_clean; eassumption | eapply template_clean; eassumption | eapply grid_clean; eassumption
          | eapply line_clean; eassumption | eapply pair_clean; eassumption | eapply four_clean; eassumption | match goal with G : GSizes _ _ |- _ => exact (sizes_clean _ _ (proj1 G) H) end].
Qed.
(** What a block gives is one *)
Theorem block_once l e e' : Block l e -> Block l e' -> forall s, e s = e' s.
Proof.
  intros (es & H & E) (es' & H' & E') s. rewrite E, E'. clear E E' e e'. revert es' H'. induction H as [|d e l es (vs & G & Ed) _ IH]; intros es' H'; inversion H' as [|d' e' l' es2 (vs' & G' & Ed') H2]; subst; [reflexivity|].
  cbn [cascade]. rewrite (IH _ H2). rewrite Ed, Ed', (value_once _ _ _ _ G G'). reflexivity.
Qed.
