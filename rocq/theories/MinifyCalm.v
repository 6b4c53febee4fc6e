(** * The table of style rules and the log; fuel *)
From Coq Require Import List Bool String PeanoNat NArith Lia.
From Verif Require Import MinifyModel MinifySpec MinifyTree MinifyProofs.
Import ListNotations.
Local Open Scope list_scope.

(** ** As long as no rule was merged into its predecessor, the table finds what it should *)
Definition e_hash (e : entry) : key := fst (fst e).
Definition e_key (e : entry) : nat := snd (fst e).
Definition e_val (e : entry) : nat := snd e.
Record calm (l : list rule) (m : list entry) : Prop := {
  c_dup : NoDup (map e_key m);
  c_in : forall e, In e m -> e_val e = e_key e /\ (e_key e < List.length l)%nat /\ forall a n, nth_error l (e_key e) = Some (Style a n) -> n = [];
  c_old : forall e e' a n, In e m -> In e' m -> e_hash e = e_hash e' -> (e_key e < e_key e')%nat -> nth_error l (e_key e) = Some (Style a n) ->
          key_of a <> e_hash e
}.
Lemma calm_change l l' m : calm l m -> (List.length l <= List.length l')%nat ->
  (forall k a n, (k < List.length l)%nat -> nth_error l' k = Some (Style a n) -> nth_error l k = Some (Style a n) \/ (n = [] /\ S k = List.length l)) ->
  calm l' m.
Proof.
  intros [A B C] HL H. constructor; [exact A | |].
  - intros e He. destruct (B e He) as (E1 & E2 & E3). split; [exact E1|]. split; [lia|]. intros a n Hn.
    destruct (H _ _ _ E2 Hn) as [X|(X & _)]; [exact (E3 _ _ X) | exact X].
  - intros e e' a n He He' EH HK Hn. destruct (B e He) as (_ & E2 & _). destruct (B e' He') as (_ & E2' & _).
    destruct (H _ _ _ E2 Hn) as [X|(_ & X)]; [exact (C e e' a n He He' EH HK X) | lia].
Qed.
Lemma calm_push l r m : calm l m -> calm (l ++ r) m.
Proof.
  intros H. apply (calm_change l); [exact H | rewrite app_length; lia|]. intros k a n HK Hn. left. rewrite nth_error_app1 in Hn by exact HK. exact Hn.
Qed.
Lemma set_nth_length {A} (l : list A) : forall i x, List.length (set_nth i x l) = List.length l.
Proof. induction l as [|y l IH]; intros [|i] x; cbn [set_nth List.length]; try reflexivity. rewrite IH. reflexivity. Qed.
Lemma nth_set_nth {A} (l : list A) : forall i x k, nth_error (set_nth i x l) k = nth_error l k \/ (i = k /\ nth_error (set_nth i x l) k = Some x).
Proof.
  induction l as [|y l IH]; intros [|i] x [|k]; cbn [set_nth nth_error]; try (left; reflexivity).
  - right. split; reflexivity.
  - destruct (IH i x k) as [E|(-> & E)]; [left; exact E | right; split; [reflexivity | exact E]].
Qed.
Definition unstyled (r : rule) : Prop := match r with Style _ _ => False | _ => True end.
Lemma calm_set l i x m : calm l m -> unstyled x -> calm (set_nth i x l) m.
Proof.
  intros H HX. apply (calm_change l); [exact H | rewrite set_nth_length; lia|]. intros k a n _ Hn.
  destruct (nth_set_nth l i x k) as [E|(_ & E)]; rewrite E in Hn; [left; exact Hn|]. injection Hn as ->. destruct HX.
Qed.
Lemma calm_last A x y m : calm (A ++ [x]) m -> (forall a n, y = Style a n -> n = []) -> calm (A ++ [y]) m.
Proof.
  intros H HY. apply (calm_change (A ++ [x])); [exact H | rewrite !app_length; cbn; lia|]. intros k a n HK Hn. rewrite app_length in HK. cbn in HK.
  destruct (Nat.lt_ge_cases k (List.length A)) as [L|L].
  - left. rewrite nth_error_app1 in Hn by exact L. rewrite nth_error_app1 by exact L. exact Hn.
  - right. assert (k = List.length A) as -> by lia. rewrite nth_error_mid in Hn. injection Hn as Hn. split; [exact (HY _ _ Hn)|].
    rewrite app_length. cbn. lia.
Qed.

Definition good_note (n : note) : Prop :=
  match n with
  | Removed i j old on new => i <> j /\ on = [] /\ key_of old = key_of new
  | Popped => True
  end.

Lemma entry_remove_some rules idx h m : forall v m', entry_remove rules idx h m = Some (v, m') ->
  exists a e b, m = a ++ e :: b /\ m' = a ++ b /\ v = e_val e /\ entry_matches rules idx h e = true.
Proof.
  induction m as [|e m IH]; intros v m' H; cbn [entry_remove] in H; [discriminate|].
  destruct (entry_matches rules idx h e) eqn:E.
  - injection H as <- <-. exists [], e, m. repeat split; assumption.
  - destruct (entry_remove rules idx h m) as [[v0 t]|]; [|discriminate]. injection H as <- <-.
    destruct (IH _ _ eq_refl) as (a & e0 & b & -> & -> & -> & E0). exists (e :: a), e0, b. repeat split; assumption.
Qed.
Lemma entry_remove_none rules idx h m : entry_remove rules idx h m = None -> forall e, In e m -> entry_matches rules idx h e = false.
Proof.
  induction m as [|e m IH]; intros H x [].
  - subst x. cbn [entry_remove] in H. destruct (entry_matches rules idx h e); [discriminate | reflexivity].
  - cbn [entry_remove] in H. destruct (entry_matches rules idx h e); [discriminate|].
    destruct (entry_remove rules idx h m) as [[v0 t]|]; [discriminate|]. exact (IH eq_refl x H0).
Qed.
Lemma entry_insert_new rules idx h m : (forall e, In e m -> entry_matches rules idx h e = false) -> entry_insert rules idx h m = m ++ [(h, idx, idx)].
Proof.
  induction m as [|e m IH]; intros H; cbn [entry_insert app]; [reflexivity|]. rewrite (H e (or_introl eq_refl)). rewrite IH; [reflexivity|].
  intros x Hx. apply H. right. exact Hx.
Qed.
Lemma matches_true rules idx h e : entry_matches rules idx h e = true ->
  e_hash e = h /\ exists a an b bn, nth_error rules (e_key e) = Some (Style a an) /\ nth_error rules idx = Some (Style b bn) /\ key_of a = key_of b.
Proof.
  destruct e as [[h' k] v]. unfold entry_matches, e_hash, e_key. cbn [fst snd]. intros H. apply andb_prop in H. destruct H as (H1 & H2).
  split; [apply key_eqb_eq, H1|].
  destruct (nth_error rules k) as [[a an|?|? ?|? ?|? ?|?|? ? ?|? ?|? ?|?|]|]; try discriminate.
  destruct (nth_error rules idx) as [[b bn|?|? ?|? ?|? ?|?|? ? ?|? ?|? ?|?|]|]; try discriminate.
  exists a, an, b, bn. split; [reflexivity|]. split; [reflexivity | apply key_eqb_eq, H2].
Qed.
(** An entry for the same hash that does not match any more. *)
Lemma matches_false rules idx b bn e : nth_error rules idx = Some (Style b bn) -> entry_matches rules idx (key_of b) e = false ->
  e_hash e = key_of b -> forall a n, nth_error rules (e_key e) = Some (Style a n) -> key_of a <> e_hash e.
Proof.
  destruct e as [[h' k] v]. unfold entry_matches, e_hash, e_key. cbn [fst snd]. intros E1 H -> a n E2. rewrite E1, E2 in H.
  rewrite key_eqb_refl in H. cbn [andb] in H. intros E. rewrite E, key_eqb_refl in H. discriminate.
Qed.
Lemma matches_not rules idx b bn e : nth_error rules idx = Some (Style b bn) ->
  (e_hash e = key_of b -> forall a n, nth_error rules (e_key e) = Some (Style a n) -> key_of a <> e_hash e) ->
  entry_matches rules idx (key_of b) e = false.
Proof.
  intros E1 H. destruct (entry_matches rules idx (key_of b) e) eqn:E; [|reflexivity]. apply matches_true in E.
  destruct E as (EH & a & an & b' & bn' & E2 & E3 & E4). rewrite E1 in E3. injection E3 as <- _. destruct (H EH a an E2). congruence.
Qed.

(** The new entry. *)
Lemma calm_insert l m s : calm l m -> (forall e, In e m -> (S (e_key e) < List.length l)%nat) ->
  nth_error l (List.length l - 1) = Some (Style s []) -> (0 < List.length l)%nat ->
  (forall e, In e m -> entry_matches l (List.length l - 1) (key_of s) e = false) ->
  calm l (entry_insert l (List.length l - 1) (key_of s) m).
Proof.
  intros [A B C] HK HS HP HM. rewrite entry_insert_new by exact HM. set (idx := (List.length l - 1)%nat) in *. constructor.
  - rewrite map_app. cbn [map]. unfold e_key at 2. cbn [fst snd]. apply NoDup_rev in A. rewrite <- (rev_involutive (map e_key m ++ [idx])).
    apply NoDup_rev. rewrite rev_app_distr. cbn [rev app]. constructor; [|exact A]. rewrite <- in_rev. intros Hi.
    apply in_map_iff in Hi. destruct Hi as (e & E & He). specialize (HK e He). unfold idx in E. lia.
  - intros e He. apply in_app_or in He. destruct He as [He|[<-|[]]]; [exact (B e He)|]. unfold e_val, e_key. cbn [fst snd].
    split; [reflexivity|]. split; [unfold idx; lia|]. intros a n E. rewrite HS in E. injection E as _ <-. reflexivity.
  - intros e e' a n He He' EH HL E. apply in_app_or in He. apply in_app_or in He'. destruct He as [He|[<-|[]]].
    + destruct He' as [He'|[<-|[]]]; [exact (C e e' a n He He' EH HL E)|].
      unfold e_hash at 2 in EH. cbn [fst snd] in EH. exact (matches_false l idx s [] e HS (HM e He) EH a n E).
    + destruct He' as [He'|[<-|[]]].
      * unfold e_key at 1 in HL. cbn [fst snd] in HL. specialize (HK e' He'). unfold idx in HL. lia.
      * lia.
Qed.
Lemma calm_sub l a e b : calm l (a ++ e :: b) -> calm l (a ++ b).
Proof.
  intros [A B C]. assert (Sub : forall x, In x (a ++ b) -> In x (a ++ e :: b)).
  { intros x Hx. apply in_app_or in Hx. apply in_or_app. destruct Hx as [Hx|Hx]; [left; exact Hx | right; right; exact Hx]. }
  constructor.
  - rewrite map_app in *. cbn [map] in A. apply NoDup_remove_1 in A. exact A.
  - intros x Hx. apply B, Sub, Hx.
  - intros x x' s n Hx Hx'. apply C; apply Sub; assumption.
Qed.

Section Calm.
Variable c : config.

Lemma push_style_calm st s sn : calm (rules st) (smap st) -> Forall good_note (notes st) ->
  calm (rules (push_style c st s sn)) (smap (push_style c st s sn)) /\ Forall good_note (notes (push_style c st s sn)).
Proof.
  intros HC HN. unfold push_style. destruct sn as [|r sn].
  2:{ cbn [is_nil negb]. split; [apply calm_push, HC | exact HN]. }
  cbn [is_nil negb]. set (idx := List.length (rules st)). set (l := rules st ++ [Style s []]).
  assert (HL : List.length l = S idx) by (unfold l; rewrite app_length; cbn; unfold idx; lia).
  assert (HLi : (List.length l - 1)%nat = idx) by lia.
  assert (HS : nth_error l idx = Some (Style s [])) by apply nth_error_mid.
  pose proof (calm_push _ [Style s []] _ HC) as HCl. fold l in HCl.
  assert (HK : forall e, In e (smap st) -> (S (e_key e) < List.length l)%nat).
  { intros e He. destruct (c_in _ _ HC e He) as (_ & X & _). unfold idx in HL. lia. }
  (* nothing is found *)
  assert (None_ : (forall e, In e (smap st) -> entry_matches l idx (key_of s) e = false) -> calm l (entry_insert l idx (key_of s) (smap st))).
  { intros HM. rewrite <- HLi. apply calm_insert; try assumption; [rewrite HLi; exact HS | lia | rewrite HLi; exact HM]. }
  destruct (0 <? idx)%nat eqn:E0.
  2:{ cbn [rules smap notes]. rewrite app_nil_r. split; [|exact HN]. apply None_. intros e He. apply Nat.ltb_ge in E0.
      destruct (c_in _ _ HC e He) as (_ & X & _). unfold idx in E0. lia. }
  destruct (entry_remove l idx (key_of s) (smap st)) as [[v m]|] eqn:ER.
  2:{ cbn [rules smap notes]. rewrite app_nil_r. split; [|exact HN]. apply None_. exact (entry_remove_none _ _ _ _ ER). }
  apply entry_remove_some in ER. destruct ER as (a & e & b & EM & -> & -> & EE).
  apply matches_true in EE. destruct EE as (EH & o & on & s' & sn' & E1 & E2 & E3). rewrite HS in E2. injection E2 as <- _.
  rewrite EM in HCl, HK, HC. assert (He : In e (a ++ e :: b)) by (apply in_or_app; right; left; reflexivity).
  destruct (c_in _ _ HCl e He) as (V1 & V2 & V3). rewrite V1, E1. specialize (V3 _ _ E1). subst on.
  pose proof (calm_sub _ _ _ _ HCl) as HCs.
  assert (HKs : forall x, In x (a ++ b) -> (S (e_key x) < List.length l)%nat).
  { intros x Hx. apply HK. apply in_app_or in Hx. apply in_or_app. destruct Hx as [Hx|Hx]; [left; exact Hx | right; right; exact Hx]. }
  (* no other entry of this hash matches *)
  assert (HM : forall x, In x (a ++ b) -> e_hash x = key_of s -> forall y n, nth_error l (e_key x) = Some (Style y n) -> key_of y <> e_hash x).
  { intros x Hx EX y n EY. assert (Hx' : In x (a ++ e :: b)).
    { apply in_app_or in Hx. apply in_or_app. destruct Hx as [Hx|Hx]; [left; exact Hx | right; right; exact Hx]. }
    assert (ND : e_key x <> e_key e).
    { intros ED. pose proof (c_dup _ _ HCl) as D. rewrite map_app in D. cbn [map] in D. apply NoDup_remove_2 in D. apply D.
      rewrite <- map_app, <- ED. apply in_map. exact Hx. }
    destruct (Nat.lt_trichotomy (e_key x) (e_key e)) as [L|[L|L]]; [|contradiction|].
    - refine (c_old _ _ HCl x e y n Hx' He _ L EY). congruence.
    - exfalso. refine (c_old _ _ HCl e x o [] He Hx' _ L E1 _); congruence. }
  destruct (negb (css_modules c) || (source s =? source o)%nat).
  - cbn [rules smap notes]. split.
    + assert (HLs : List.length (set_nth (e_key e) Ignored l) = S idx) by (rewrite set_nth_length; exact HL).
      assert (HSs : nth_error (set_nth (e_key e) Ignored l) idx = Some (Style s [])).
      { destruct (nth_set_nth l (e_key e) Ignored idx) as [E|(E & _)]; [rewrite E; exact HS|]. specialize (HK e He). lia. }
      replace idx with (List.length (set_nth (e_key e) Ignored l) - 1)%nat by lia.
      apply calm_insert; [apply calm_set; [exact HCs | exact I] | rewrite set_nth_length; exact HKs | | lia|].
      * rewrite HLs. replace (S idx - 1)%nat with idx by lia. exact HSs.
      * rewrite HLs. replace (S idx - 1)%nat with idx by lia. intros x Hx. apply (matches_not _ _ _ [] _ HSs). intros EX y n EY.
        destruct (nth_set_nth l (e_key e) Ignored (e_key x)) as [E|(_ & E)]; rewrite E in EY; [exact (HM x Hx EX y n EY) | discriminate].
    + apply Forall_app. split; [exact HN|]. constructor; [|constructor]. split; [specialize (HK e He); lia|]. split; [reflexivity | exact E3].
  - cbn [rules smap notes]. rewrite app_nil_r. split; [|exact HN]. rewrite <- HLi.
    apply calm_insert; [exact HCs | exact HKs | rewrite HLi; exact HS | lia|]. rewrite HLi. intros x Hx.
    apply (matches_not _ _ _ [] _ HS). exact (HM x Hx).
Qed.

Lemma merge_nil s sn p pn r : merge c s sn p pn = Some r -> pn = [].
Proof.
  unfold merge. destruct pn; [reflexivity|]. cbn [is_nil]. rewrite !andb_false_r. cbn [andb]. rewrite ?andb_false_r. discriminate.
Qed.
Lemma squeeze_calm s sn before r n : squeeze c s sn before = (r, n) -> ~ In Popped n -> r = Style s sn :: before /\ n = [].
Proof.
  destruct before as [|b t]; cbn [squeeze]; [intros H _; injection H as <- <-; split; reflexivity|].
  destruct b as [p pn|?|? ?|? ?|? ?|?|? ? ?|? ?|? ?|?|]; try (intros H _; injection H as <- <-; split; reflexivity).
  destruct (merge c s sn p pn) as [[s' p']|]; [|intros H _; injection H as <- <-; split; reflexivity].
  destruct (squeeze c p' pn t) as [r0 n0]. intros H HP. injection H as _ <-. destruct HP. left. reflexivity.
Qed.
Lemma try_merge_calm s sn l s' l' n m : try_merge c s sn l = Some (s', l', n) -> ~ In Popped n -> calm l m -> calm l' m /\ n = [].
Proof.
  unfold try_merge. destruct (rev l) as [|b t] eqn:ER; [discriminate|].
  destruct b as [p pn|?|? ?|? ?|? ?|?|? ? ?|? ?|? ?|?|]; try discriminate.
  destruct (merge c s sn p pn) as [[s0 p']|] eqn:EM; [|discriminate]. destruct (squeeze c p' pn t) as [r0 n0] eqn:EQ.
  intros H HP HC. injection H as _ <- <-. destruct (squeeze_calm _ _ _ _ _ EQ HP) as (-> & ->). split; [|reflexivity].
  assert (EL : l = rev t ++ [Style p pn]) by (rewrite <- (rev_involutive l), ER; reflexivity). rewrite EL in HC.
  cbn [rev]. apply (calm_last _ (Style p pn)); [exact HC|]. intros a x E. injection E as _ <-. exact (merge_nil _ _ _ _ _ EM).
Qed.
Lemma add_style_calm st s sn : ~ In Popped (notes (add_style c st s sn)) -> calm (rules st) (smap st) -> Forall good_note (notes st) ->
  calm (rules (add_style c st s sn)) (smap (add_style c st s sn)) /\ Forall good_note (notes (add_style c st s sn)).
Proof.
  unfold add_style. destruct (split_sels c (sels s)) as [keep rest]. destruct (upd_prefix c keep) as [ss v].
  set (s1 := {| sels := ss; vpx := v; blk := blk s; source := source s |}).
  assert (G : forall (merged : bool) s2 st2 (divide : bool) own clones, calm (rules st2) (smap st2) -> Forall good_note (notes st2) ->
    let st3 := if merged || style_is_empty s2 own then st2 else push_style c st2 s2 own in
    let st4 := if divide then push (with_rules st3 (rules st3 ++ clones)) (Style {| sels := sels s2; vpx := vpx s2; blk := ([], []); source := source s2 |} sn)
               else with_rules st3 (rules st3 ++ clones) in
    calm (rules st4) (smap st4) /\ Forall good_note (notes st4)).
  { intros merged s2 st2 divide own0 clones HC HN st3 st4.
    assert (X : calm (rules st3) (smap st3) /\ Forall good_note (notes st3))
      by (unfold st3; destruct (merged || style_is_empty s2 own0); [split; assumption | apply push_style_calm; assumption]).
    destruct X as (X1 & X2). unfold st4. destruct divide; cbn [push with_rules rules smap notes]; (split; [|exact X2]).
    - apply calm_push, calm_push, X1.
    - apply calm_push, X1. }
  destruct (try_merge c s1 sn (rules st)) as [[[s' l'] n]|] eqn:EM; intros HP HC HN.
  - assert (HPn : ~ In Popped n).
    { intros Hn. apply HP. revert Hn. clear HP.
      assert (Q : forall (divide merged : bool) own st5 clones, In Popped n -> notes st5 = notes st ++ n -> merged = true ->
        In Popped (notes (if divide then push (with_rules (if merged || style_is_empty s' own then st5 else push_style c st5 s' own)
            (rules (if merged || style_is_empty s' own then st5 else push_style c st5 s' own) ++ clones)) (Style {| sels := sels s'; vpx := vpx s'; blk := ([], []); source := source s' |} sn)
          else with_rules (if merged || style_is_empty s' own then st5 else push_style c st5 s' own)
            (rules (if merged || style_is_empty s' own then st5 else push_style c st5 s' own) ++ clones)))).
      { intros divide merged own0 st5 clones Hn E ->. cbn [orb]. destruct divide; cbn [push with_rules notes]; rewrite E; apply in_or_app; right; exact Hn. }
      intros Hn. apply Q; [exact Hn | reflexivity | reflexivity]. }
    destruct (try_merge_calm _ _ _ _ _ _ (smap st) EM HPn HC) as (C1 & ->).
    apply G; cbn [add_notes with_rules rules smap notes]; [exact C1 | rewrite app_nil_r; exact HN].
  - apply G; assumption.
Qed.

Definition recgood (rec : bool -> list rule -> option (list rule * log)) : Prop :=
  forall parent l l' n, rec parent l = Some (l', n) -> ~ In Popped n -> Forall good_note n.
Section Rec.
Variable rec : bool -> list rule -> option (list rule * log).
Hypothesis RG : recgood rec.
Lemma add_notes_calm st n : ~ In Popped (notes (add_notes st n)) -> ~ In Popped (notes st) /\ ~ In Popped n.
Proof. cbn [add_notes notes]. intros H. split; intros X; apply H, in_or_app; [left | right]; exact X. Qed.
Definition still (st : state) : Prop := calm (rules st) (smap st) /\ Forall good_note (notes st).
Lemma still_notes st n : still st -> Forall good_note n -> still (add_notes st n).
Proof. intros (A & B) H. split; [exact A|]. cbn [add_notes notes]. apply Forall_app. split; assumption. Qed.
Lemma still_push st r : still st -> still (push st r).
Proof. intros (A & B). split; [apply calm_push, A | exact B]. Qed.
Lemma still_names names : forall st, still st -> still (step_layer_statement st names).
Proof.
  induction names as [|n names IH]; intros st HS; [exact HS|]. unfold step_layer_statement. cbn [fold_left].
  change (fold_left step_layer_name names ?s) with (step_layer_statement s names). apply IH. unfold step_layer_name.
  destruct (lookup name_eqb n (lmap st)); [exact HS|]. destruct HS as (A & B). split; [apply calm_push, A | exact B].
Qed.
Lemma step_still parent st r st' : step c rec parent st r = Some st' -> ~ In Popped (notes st') -> still st -> still st'.
Proof.
  intros H HP HS. pose proof HS as (A & B). destruct r as [s l|b|q l|k l|n l|n|n p b|n b|n b|n|]; cbn [step] in H.
  - unfold step_style in H. destruct parent; [injection H as <-; exact HS|].
    destruct (unused c (sels s) && is_nil l); [injection H as <-; exact HS|].
    destruct (if is_nil l then Some ([], []) else rec (unused c (sels s)) l) as [[l' n]|] eqn:ER; [|discriminate].
    assert (GN : ~ In Popped n -> Forall good_note n).
    { intros Hn. destruct (is_nil l); [injection ER as _ <-; constructor | exact (RG _ _ _ _ ER Hn)]. }
    destruct (unused c (sels s) && is_nil l'); injection H as <-.
    + apply add_notes_calm in HP. apply still_notes; [exact HS | exact (GN (proj2 HP))].
    + assert (HP1 : ~ In Popped (notes (add_notes st n))) by (intros X; apply HP, add_style_notes, X).
      apply add_notes_calm in HP1. pose proof (still_notes st n HS (GN (proj2 HP1))) as (A' & B').
      exact (add_style_calm (add_notes st n) _ l' HP A' B').
  - destruct parent; injection H as <-; [exact HS | apply still_push, HS].
  - unfold step_cond in H.
    assert (Alone : (match rec parent l with
      | None => None
      | Some (l', n) => if is_nil l' || never c (tr c q) then Some (add_notes st n) else Some (push (add_notes st n) (Cond (tr c q) l'))
      end) = Some st' -> still st').
    { clear H. intros H. destruct (rec parent l) as [[l' n]|] eqn:ER; [|discriminate].
      assert (GN : ~ In Popped n -> Forall good_note n) by (intros Hn; exact (RG _ _ _ _ ER Hn)).
      destruct (is_nil l' || never c (tr c q)); injection H as <-.
      - apply add_notes_calm in HP. apply still_notes; [exact HS | exact (GN (proj2 HP))].
      - apply (add_notes_calm st n) in HP. apply still_push, still_notes; [exact HS | exact (GN (proj2 HP))]. }
    unfold last_rule in H. destruct (rev (rules st)) as [|r t] eqn:EL; [exact (Alone H)|].
    destruct r as [?|?|q0 l0|? ?|? ?|?|? ? ?|? ?|? ?|?|]; try exact (Alone H).
    destruct (cond_eqb q0 q); [|exact (Alone H)]. destruct (rec parent (l0 ++ l)) as [[l' n]|] eqn:ER; [|discriminate].
    injection H as <-. apply add_notes_calm in HP. apply still_notes; [|exact (RG _ _ _ _ ER (proj2 HP))].
    assert (E : rules st = rev t ++ [Cond q0 l0]) by (rewrite <- (rev_involutive (rules st)), EL; reflexivity).
    split; [|exact B]. cbn [with_rules rules smap]. rewrite E in A. apply (calm_last _ (Cond q0 l0)); [exact A|]. intros a x X. discriminate X.
  - unfold step_wrap in H. destruct (rec (match k with WStarting => parent | _ => false end) l) as [[l' n]|] eqn:ER; [|discriminate].
    assert (HPn : ~ In Popped n).
    { destruct k; [| |destruct (is_nil l')]; injection H as <-; apply (add_notes_calm st n) in HP; exact (proj2 HP). }
    pose proof (still_notes st n HS (RG _ _ _ _ ER HPn)) as HS'.
    destruct k; [| |destruct (is_nil l')]; injection H as <-; try (apply still_push); exact HS'.
  - injection H as <-. unfold step_layer_block. destruct n as [n|]; [|apply still_push, HS].
    assert (P : still (push_layer st n l)) by (split; [apply calm_push, A | exact B]).
    destruct (lookup name_eqb n (lmap st)) as [i|]; [|exact P].
    destruct (nth_error (rules st) i) as [[?|?|? ?|? ?|? ?|?|? ? ?|? ?|? ?|?|]|]; try exact P.
    split; [apply calm_set; [exact A | exact I] | exact B].
  - injection H as <-. apply still_names, HS.
  - injection H as <-. unfold step_keyframes. destruct (unused_name c n); [exact HS|].
    destruct (lookup String.eqb n (kmap st)) as [i|]; [|split; [apply calm_push, A | exact B]].
    destruct (nth_error (rules st) i) as [[?|?|? ?|? ?|? ?|?|? ? ?|? ?|? ?|?|]|]; try (split; [apply calm_push, A | exact B]).
    destruct (vp_eqb p0 p); [split; [apply calm_set; [exact A | exact I] | exact B]|].
    destruct (body =? mkf c b)%nat; [split; [apply calm_set; [exact A | exact I] | exact B] | split; [apply calm_push, A | exact B]].
  - injection H as <-. unfold step_property. destruct (unused_name c n); [exact HS|].
    destruct (lookup String.eqb n (pmap st)); [split; [apply calm_set; [exact A | exact I] | exact B] | split; [apply calm_push, A | exact B]].
  - injection H as <-. split; [apply calm_push, A | exact B].
  - injection H as <-. apply still_push, HS.
  - injection H as <-. apply still_push, HS.
Qed.
Lemma steps_still l : forall parent st st', steps c rec parent st l = Some st' -> ~ In Popped (notes st') -> still st -> still st'.
Proof.
  induction l as [|r l IH]; intros parent st st' H HP HS; cbn [steps] in H; [injection H as <-; exact HS|].
  destruct (step c rec parent st r) as [st1|] eqn:E1; [|discriminate].
  assert (HP1 : ~ In Popped (notes st1)) by (intros X; apply HP, (steps_notes c rec l _ _ _ H), X).
  exact (IH _ _ _ H HP (step_still _ _ _ _ E1 HP1 HS)).
Qed.
Lemma finish_good todo : forall parent done declared statement n l' n', finish rec parent todo done declared statement n = Some (l', n') ->
  ~ In Popped n' -> Forall good_note n -> Forall good_note n'.
Proof.
  induction todo as [|r todo IH]; intros parent done declared statement n l' n' H HP HN; cbn [finish] in H; [injection H as _ <-; exact HN|].
  destruct r as [s l|b|q l|k l|nm l|nm|nm p b|nm b|nm b|nm|]; try exact (IH _ _ _ _ _ _ _ H HP HN).
  - destruct (rec parent l) as [[l1 n1]|] eqn:ER; [|discriminate].
    assert (HI : incl (n ++ n1) n').
    { destruct (is_nil l1); [|exact (finish_notes _ _ _ _ _ _ _ _ _ H)].
      destruct nm as [nm|]; [|exact (finish_notes _ _ _ _ _ _ _ _ _ H)].
      destruct (existsb (name_eqb nm) declared); [exact (finish_notes _ _ _ _ _ _ _ _ _ H)|].
      destruct statement as [j|]; [|exact (finish_notes _ _ _ _ _ _ _ _ _ H)].
      destruct (nth_error done j) as [[?|?|? ?|? ?|? ?|?|? ? ?|? ?|? ?|?|]|]; exact (finish_notes _ _ _ _ _ _ _ _ _ H). }
    assert (HN1 : Forall good_note (n ++ n1)).
    { apply Forall_app. split; [exact HN|]. apply (RG _ _ _ _ ER). intros X. apply HP, HI, in_or_app. right. exact X. }
    destruct (is_nil l1); [|exact (IH _ _ _ _ _ _ _ H HP HN1)].
    destruct nm as [nm|]; [|exact (IH _ _ _ _ _ _ _ H HP HN1)].
    destruct (existsb (name_eqb nm) declared); [exact (IH _ _ _ _ _ _ _ H HP HN1)|].
    destruct statement as [j|]; [|exact (IH _ _ _ _ _ _ _ H HP HN1)].
    destruct (nth_error done j) as [[?|?|? ?|? ?|? ?|?|? ? ?|? ?|? ?|?|]|]; exact (IH _ _ _ _ _ _ _ H HP HN1).
  - destruct nm as [[nm|]|]; exact (IH _ _ _ _ _ _ _ H HP HN).
Qed.
End Rec.

Lemma still_init : still init.
Proof. split; [|constructor]. constructor; [constructor | intros e [] | intros e e' a n []]. Qed.
Lemma minify_good fuel : recgood (minify c fuel).
Proof.
  induction fuel as [|fuel IH]; intros parent l l' n H HP; cbn [minify] in H; [discriminate|].
  destruct (steps c (minify c fuel) parent init l) as [st|] eqn:ES; [|discriminate].
  assert (HPS : ~ In Popped (notes st)).
  { destruct (has_layers st); [intros X; apply HP, (finish_notes _ _ _ _ _ _ _ _ _ H), X | injection H as _ <-; exact HP]. }
  destruct (steps_still _ IH l parent init st ES HPS still_init) as (_ & HN).
  destruct (has_layers st); [exact (finish_good _ IH _ _ _ _ _ _ _ _ H HP HN) | injection H as _ <-; exact HN].
Qed.
Lemma good_ok n : good_note n -> same_importance n -> ok_note n.
Proof.
  destruct n as [i j old on new|]; [|trivial]. intros (A & B & C) S. split; [exact A|]. split; [exact B|].
  unfold key_of in C. injection C as C1 C2. split; [exact C1|]. split; [exact C2 | exact S].
Qed.
Lemma minifies_ok w l l' n : faithful c w -> untargeted c -> minifies c l l' n -> all_tidy Outer l -> never_popped n -> Forall same_importance n ->
  all_tidy Outer l' /\ teq c w (sheet w l') (sheet w l).
Proof.
  intros F U (fuel & H) HT HP HS. destruct (minify_ok c w F U fuel l l' n H) as (A & B).
  - apply all_tidy_Forall, HT.
  - pose proof (minify_good fuel false l l' n H HP) as HG. rewrite Forall_forall in *. intros x Hx. apply good_ok; [exact (HG x Hx) | exact (HS x Hx)].
  - split; [apply all_tidy_Forall, A | exact B].
Qed.
End Calm.

(** ** For the properties *)
Lemma proper_ok n : proper n -> ok_note n.
Proof. destruct n as [i j old on new|]; [|trivial]. intros (A & B & C & D & E). split; [exact A|]. split; [exact B|]. split; [exact C|]. split; [exact D | exact E]. Qed.
Lemma ok_proper n : ok_note n -> proper n.
Proof. destruct n as [i j old on new|]; [|trivial]. intros (A & B & C & D & E). split; [exact A|]. split; [exact B|]. split; [exact C|]. split; [exact D | exact E]. Qed.
Lemma minifies_proper c w l l' n : faithful c w -> untargeted c -> all_tidy Outer l -> minifies c l l' n -> Forall proper n ->
  all_tidy Outer l' /\ teq c w (sheet w l') (sheet w l).
Proof.
  intros F U HT (fuel & H) HP. destruct (minify_ok c w F U fuel l l' n H) as (A & B).
  - apply all_tidy_Forall, HT.
  - rewrite Forall_forall in *. intros x Hx. apply proper_ok, (HP x Hx).
  - split; [apply all_tidy_Forall, A | exact B].
Qed.
Lemma calm_proper c l l' n : minifies c l l' n -> never_popped n -> Forall same_importance n -> Forall proper n.
Proof.
  intros (fuel & H) HP HS. pose proof (minify_good c fuel false l l' n H HP) as HG. rewrite Forall_forall in *.
  intros x Hx. apply ok_proper, good_ok; [exact (HG x Hx) | exact (HS x Hx)].
Qed.
Lemma tidy_kept c w l l' n : faithful c w -> untargeted c -> all_tidy Outer l -> minifies c l l' n -> Forall proper n -> all_tidy Outer l'.
Proof. intros F U T M P. apply (proj1 (minifies_proper c w l l' n F U T M P)). Qed.
Lemma cascade_kept c w l l' n q : faithful c w -> untargeted c -> all_tidy Outer l -> minifies c l l' n -> Forall proper n ->
  cascaded w q (sheet w l') = cascaded w q (sheet w l).
Proof. intros F U T M P. apply (cascaded_eq c w), (proj2 (minifies_proper c w l l' n F U T M P)). Qed.
Lemma others_kept c w l l' n : faithful c w -> untargeted c -> all_tidy Outer l -> minifies c l l' n -> Forall proper n ->
  others [] (sheet w l') = others [] (sheet w l).
Proof. intros F U T M P. apply (others_eq c w), (proj2 (minifies_proper c w l l' n F U T M P)). Qed.
Lemma layers_kept c w l l' n : faithful c w -> untargeted c -> all_tidy Outer l -> minifies c l l' n -> Forall proper n ->
  layers [] (sheet w l') = layers [] (sheet w l).
Proof. intros F U T M P. apply (layers_eq c w), (proj2 (minifies_proper c w l l' n F U T M P)). Qed.
Lemma keyframes_kept c w l l' n name p : faithful c w -> untargeted c -> all_tidy Outer l -> minifies c l l' n -> Forall proper n ->
  unused_name c name = false -> keyframes_of name p (sheet w l') = keyframes_of name p (sheet w l).
Proof. intros F U T M P N. eapply keyframes_eq; [exact N | apply (proj2 (minifies_proper c w l l' n F U T M P))]. Qed.
Lemma registered_kept c w l l' n name : faithful c w -> untargeted c -> all_tidy Outer l -> minifies c l l' n -> Forall proper n ->
  unused_name c name = false -> registered name (sheet w l') = registered name (sheet w l).
Proof. intros F U T M P N. eapply registered_eq; [exact N | apply (proj2 (minifies_proper c w l l' n F U T M P))]. Qed.
