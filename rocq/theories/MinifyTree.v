(** * Lemmas about the meaning of rule lists (MinifySpec) *)
From Coq Require Import List Bool String PeanoNat NArith Lia.
From Verif Require Import MinifyModel MinifySpec.
Import ListNotations.
Local Open Scope list_scope.

(** ** Induction over rules and trees *)
Section RuleInd.
Variable P : rule -> Prop.
Hypothesis HStyle : forall s l, Forall P l -> P (Style s l).
Hypothesis HNested : forall b, P (NestedDecls b).
Hypothesis HCond : forall q l, Forall P l -> P (Cond q l).
Hypothesis HWrap : forall k l, Forall P l -> P (Wrap k l).
Hypothesis HLayerB : forall n l, Forall P l -> P (LayerB n l).
Hypothesis HLayerS : forall n, P (LayerS n).
Hypothesis HKeyf : forall n p b, P (Keyf n p b).
Hypothesis HProp : forall n b, P (Prop_ n b).
Hypothesis HImport : forall n b, P (Import n b).
Hypothesis HOther : forall n, P (Other n).
Hypothesis HIgnored : P Ignored.
Fixpoint rule_ind' (r : rule) : P r :=
  let all := fix all (l : list rule) : Forall P l :=
    match l with [] => Forall_nil P | r :: l' => Forall_cons r (rule_ind' r) (all l') end in
  match r with
  | Style s l => HStyle s l (all l)
  | NestedDecls b => HNested b
  | Cond q l => HCond q l (all l)
  | Wrap k l => HWrap k l (all l)
  | LayerB n l => HLayerB n l (all l)
  | LayerS n => HLayerS n
  | Keyf n p b => HKeyf n p b
  | Prop_ n b => HProp n b
  | Import n b => HImport n b
  | Other n => HOther n
  | Ignored => HIgnored
  end.
End RuleInd.
Section TreeInd.
Variable P : tree -> Prop.
Hypothesis HNode : forall o s, Forall (fun x => P (snd x)) s -> P (Node o s).
Fixpoint tree_ind' (t : tree) : P t :=
  match t with
  | Node o s => HNode o s ((fix all (s : list (option string * tree)) : Forall (fun x => P (snd x)) s :=
      match s with [] => Forall_nil _ | x :: s' => Forall_cons x (tree_ind' (snd x)) (all s') end) s)
  end.
End TreeInd.

Lemma fold_left_ext {A B} (f g : A -> B -> A) l : (forall a b, f a b = g a b) -> forall a, fold_left f l a = fold_left g l a.
Proof. intros E. induction l as [|x l IH]; intros a; [reflexivity|]. cbn [fold_left]. rewrite E. apply IH. Qed.

(** ** Equations *)
Section Equations.
Variable w : world.
Lemma inner_adds : forall l ctx t,
  (fix adds (ctx : list frame) (l : list rule) (t : tree) {struct l} : tree :=
    match l with [] => t | r :: l' => adds ctx l' (add w ctx r t) end) ctx l t = adds w ctx l t.
Proof. induction l as [|r l IH]; intros ctx t; [reflexivity|]. cbn [adds]. apply IH. Qed.

Lemma add_Style s l ctx t : add w ctx (Style s l) t =
  fold_left (fun t p => adds w (FStyle p (sels s) :: ctx) l (say (block_events (list_spec w p ctx (sels s)) (blk s)) t)) (printings (vpx s)) t.
Proof. cbn [add]. apply fold_left_ext. intros a b. apply inner_adds. Qed.
Lemma add_Cond q l ctx t : add w ctx (Cond q l) t = if holds w q then adds w ctx l t else t.
Proof. cbn [add]. destruct (holds w q); [apply inner_adds | reflexivity]. Qed.
Lemma add_Wrap k l ctx t : add w ctx (Wrap k l) t = adds w (FWrap k :: ctx) l t.
Proof. cbn [add]. apply inner_adds. Qed.
Lemma at_layer_ext n f g s : (forall t, f t = g t) -> at_layer n f s = at_layer n g s.
Proof.
  intros E. induction s as [|[[m|] t] s IH]; cbn [at_layer]; rewrite ?E, ?IH; reflexivity.
Qed.
Lemma at_path_ext p : forall f g t, (forall t, f t = g t) -> at_path p f t = at_path p g t.
Proof.
  induction p as [|n p IH]; intros f g t E; cbn [at_path]; [apply E|]. destruct t as [o s]. f_equal.
  apply at_layer_ext. intros u. apply IH. exact E.
Qed.
Lemma add_LayerB n l ctx t : add w ctx (LayerB (Some n) l) t = at_path n (adds w ctx l) t.
Proof. cbn [add]. apply at_path_ext. intros u. apply inner_adds. Qed.
Lemma add_LayerN l ctx o s : add w ctx (LayerB None l) (Node o s) = Node o (s ++ [(None, adds w ctx l bare)]).
Proof. cbn [add]. rewrite inner_adds. reflexivity. Qed.

Lemma adds_app l1 : forall l2 ctx t, adds w ctx (l1 ++ l2) t = adds w ctx l2 (adds w ctx l1 t).
Proof. induction l1 as [|r l1 IH]; intros l2 ctx t; [reflexivity|]. cbn [app adds]. apply IH. Qed.
End Equations.

(** ** The events a rule adds to its own layer *)
Fixpoint own (w : world) (ctx : list frame) (r : rule) {struct r} : list event :=
  match r with
  | Style s l => flat_map (fun p => block_events (list_spec w p ctx (sels s)) (blk s)
                                    ++ flat_map (own w (FStyle p (sels s) :: ctx)) l) (printings (vpx s))
  | NestedDecls b => block_events (parent_spec w ctx) b
  | Cond q l => if holds w q then flat_map (own w ctx) l else []
  | Wrap k l => flat_map (own w (FWrap k :: ctx)) l
  | LayerB _ _ | LayerS _ | Ignored => []
  | Keyf name p body => map (fun x => EKeyf name x (frames w body)) (prefixes_of p)
  | Prop_ name body => [EProp name body]
  | Import None id => [EImport id]
  | Import _ _ => []
  | Other id => [EOther id]
  end.
Definition owns (w : world) (ctx : list frame) (l : list rule) : list event := flat_map (own w ctx) l.
Definition own_part (t : tree) : list event := let 'Node o _ := t in o.
Definition sub_part (t : tree) : list (option string * tree) := let 'Node _ s := t in s.
Definition sub1 (w : world) (ctx : list frame) (r : rule) (s : list (option string * tree)) := sub_part (add w ctx r (Node [] s)).
Definition subl (w : world) (ctx : list frame) (l : list rule) (s : list (option string * tree)) := sub_part (adds w ctx l (Node [] s)).

Lemma at_path_node p f o s : p <> [] -> at_path p f (Node o s) = Node o (sub_part (at_path p f (Node [] s))).
Proof. destruct p; [congruence|]. intros _. reflexivity. Qed.

(** Layer names and imports are never empty paths. *)
Fixpoint named (r : rule) {struct r} : Prop :=
  let all := fix all (l : list rule) {struct l} : Prop := match l with [] => True | r :: l' => named r /\ all l' end in
  match r with
  | Style _ l | Cond _ l | Wrap _ l | LayerB None l => all l
  | LayerB (Some n) l => n <> [] /\ all l
  | LayerS names => Forall (fun n => n <> []) names
  | Import (Some (Some n)) _ => n <> []
  | _ => True
  end.
Lemma named_all : forall l,
  (fix all (l : list rule) {struct l} : Prop := match l with [] => True | r :: l' => named r /\ all l' end) l <-> Forall named l.
Proof.
  induction l as [|r l IH]; [split; [constructor | trivial]|]. split.
  - intros [A B]. constructor; [exact A | apply IH; exact B].
  - intros H. split; [exact (Forall_inv H) | apply IH; exact (Forall_inv_tail H)].
Qed.

Section Node.
Variable w : world.
Definition node_ok (r : rule) : Prop := named r -> forall ctx o s,
  add w ctx r (Node o s) = Node (o ++ own w ctx r) (sub1 w ctx r s).

Lemma adds_node_gen l : Forall node_ok l -> Forall named l -> forall ctx o s,
  adds w ctx l (Node o s) = Node (o ++ owns w ctx l) (subl w ctx l s).
Proof.
  induction l as [|r l IH]; intros HF HN ctx o s.
  - cbn. rewrite app_nil_r. reflexivity.
  - pose proof (Forall_inv HF (Forall_inv HN)) as Hr. specialize (IH (Forall_inv_tail HF) (Forall_inv_tail HN)).
    unfold subl, owns. cbn [adds flat_map]. rewrite (Hr ctx o s), (Hr ctx [] s). rewrite !IH. cbn [sub_part].
    rewrite app_assoc. reflexivity.
Qed.

Lemma at_paths_node names : Forall (fun n => n <> []) names -> forall o s,
  fold_left (fun t path => at_path path (fun t => t) t) names (Node o s)
  = Node o (sub_part (fold_left (fun t path => at_path path (fun t => t) t) names (Node [] s))).
Proof.
  induction names as [|n names IH]; intros HN o s; [reflexivity|]. cbn [fold_left].
  rewrite (at_path_node n _ o s) by exact (Forall_inv HN). rewrite (at_path_node n _ [] s) by exact (Forall_inv HN).
  rewrite IH by exact (Forall_inv_tail HN). f_equal.
Qed.

Lemma node_all : forall r, node_ok r.
Proof.
  intros r. induction r as [st l IH|b|q l IH|k l IH|n l IH|n|n p b|n b|n b|n|] using rule_ind'; intros HN ctx o s; unfold sub1.
  - cbn [named] in HN. rewrite named_all in HN. rewrite !add_Style.
    cbn [own]. revert o s.
    induction (printings (vpx st)) as [|p ps IHp]; intros o s; cbn [fold_left flat_map].
    + rewrite app_nil_r. reflexivity.
    + cbn [say app]. rewrite !(adds_node_gen l IH HN). cbn [own_part].
      rewrite IHp. rewrite (IHp (_ ++ owns w _ l)). cbn [sub_part]. f_equal. unfold owns. rewrite <- !app_assoc. reflexivity.
  - reflexivity.
  - cbn [named] in HN. rewrite named_all in HN. rewrite !add_Cond. cbn [own]. destruct (holds w q).
    + rewrite !(adds_node_gen l IH HN). cbn [sub_part]. reflexivity.
    + rewrite app_nil_r. reflexivity.
  - cbn [named] in HN. rewrite named_all in HN. rewrite !add_Wrap. cbn [own]. rewrite !(adds_node_gen l IH HN). reflexivity.
  - destruct n as [n|]; cbn [named] in HN; cbn [own]; rewrite app_nil_r.
    + rewrite !add_LayerB. apply at_path_node. tauto.
    + rewrite !add_LayerN. reflexivity.
  - cbn [own named add] in *. rewrite app_nil_r. apply at_paths_node. exact HN.
  - reflexivity.
  - reflexivity.
  - destruct n as [[n|]|]; cbn [own add named] in *; rewrite ?app_nil_r; [| reflexivity | reflexivity].
    apply at_path_node. exact HN.
  - reflexivity.
  - cbn [own add]. rewrite app_nil_r. reflexivity.
Qed.
Lemma add_node r ctx o s : named r -> add w ctx r (Node o s) = Node (o ++ own w ctx r) (sub1 w ctx r s).
Proof. intros H. exact (node_all r H ctx o s). Qed.
Lemma adds_node l ctx o s : Forall named l -> adds w ctx l (Node o s) = Node (o ++ owns w ctx l) (subl w ctx l s).
Proof. intros H. apply adds_node_gen; [|exact H]. apply Forall_forall. intros r _. apply node_all. Qed.
Lemma subl_app l1 l2 ctx s : Forall named l1 -> Forall named l2 -> subl w ctx (l1 ++ l2) s = subl w ctx l2 (subl w ctx l1 s).
Proof.
  intros H1 H2. unfold subl. rewrite adds_app. rewrite (adds_node l1) by exact H1. rewrite !(adds_node l2) by exact H2. reflexivity.
Qed.
Lemma subl_one r ctx s : subl w ctx [r] s = sub1 w ctx r s.
Proof. reflexivity. Qed.
Lemma owns_app l1 l2 ctx : owns w ctx (l1 ++ l2) = owns w ctx l1 ++ owns w ctx l2.
Proof. apply flat_map_app. Qed.
End Node.

(** ** Events that mean the same *)
Section Equality.
Variable c : config.
Variable w : world.
Definition kf_in (n : string) (p : prefix) : list event -> option nat :=
  last_some (fun e => match e with EKeyf n' x b => if (n' =? n)%string && prefix_eqb x p then Some b else None | _ => None end).
Definition prop_in (n : string) : list event -> option nat :=
  last_some (fun e => match e with EProp n' b => if (n' =? n)%string then Some b else None | _ => None end).
Definition own_eq (a b : list event) : Prop :=
  (forall q imp, best w q imp a = best w q imp b)
  /\ (forall n p, unused_name c n = false -> kf_in n p a = kf_in n p b)
  /\ (forall n, unused_name c n = false -> prop_in n a = prop_in n b)
  /\ other_events a = other_events b.
Lemma own_eq_refl a : own_eq a a.
Proof. repeat split. Qed.
Lemma own_eq_sym a b : own_eq a b -> own_eq b a.
Proof.
  intros (A & B & C & D). split; [intros; symmetry; apply A|]. split; [intros; symmetry; apply B; assumption|].
  split; [intros; symmetry; apply C; assumption | symmetry; exact D].
Qed.
Lemma own_eq_trans a b d : own_eq a b -> own_eq b d -> own_eq a d.
Proof.
  intros (A & B & C & D) (A' & B' & C' & D'). split; [intros; rewrite A; apply A'|].
  split; [intros; rewrite B by assumption; apply B'; assumption|].
  split; [intros; rewrite C by assumption; apply C'; assumption | congruence].
Qed.

Lemma join_none_l x : join None x = x.
Proof. destruct x as [[s v]|]; reflexivity. Qed.
Lemma join_none_r x : join x None = x.
Proof. destruct x as [[s v]|]; reflexivity. Qed.
Lemma join_assoc x y z : join x (join y z) = join (join x y) z.
Proof.
  destruct x as [[a u]|]; [|rewrite !join_none_l; reflexivity].
  destruct y as [[b v]|]; [|rewrite join_none_l, join_none_r; reflexivity].
  destruct z as [[d x]|]; [|rewrite !join_none_r; reflexivity].
  cbn [join].
  destruct (N.leb_spec b d) as [H1|H1]; cbn [join]; destruct (N.leb_spec a b) as [H2|H2]; cbn [join];
    destruct (N.leb_spec a d) as [H3|H3]; cbn [join]; try reflexivity;
    try (destruct (N.leb_spec b d); cbn [join]; try reflexivity; lia); try lia.
Qed.
Lemma best_app q imp a b : best w q imp (a ++ b) = join (best w q imp a) (best w q imp b).
Proof.
  induction a as [|e a IH]; [symmetry; apply join_none_l|]. unfold best in *. cbn [app fold_right]. rewrite IH.
  apply join_assoc.
Qed.
Lemma orelse_assoc {A} (x y z : option A) : orelse x (orelse y z) = orelse (orelse x y) z.
Proof. destruct x; reflexivity. Qed.
Lemma last_some_app {A B} (f : A -> option B) a b : last_some f (a ++ b) = orelse (last_some f b) (last_some f a).
Proof.
  induction a as [|x a IH]; cbn [app last_some]; [destruct (last_some f b); reflexivity|]. rewrite IH. symmetry. apply orelse_assoc.
Qed.
Lemma other_events_app a b : other_events (a ++ b) = other_events a ++ other_events b.
Proof. apply filter_app. Qed.
Lemma own_eq_app a a' b b' : own_eq a a' -> own_eq b b' -> own_eq (a ++ b) (a' ++ b').
Proof.
  intros (A & B & C & D) (A' & B' & C' & D'). split; [intros; rewrite !best_app, A, A'; reflexivity|].
  unfold kf_in, prop_in in *.
  split; [intros; rewrite !last_some_app, B, B' by assumption; reflexivity|].
  split; [intros; rewrite !last_some_app, C, C' by assumption; reflexivity|].
  rewrite !other_events_app, D, D'. reflexivity.
Qed.

(** ** Trees that mean the same *)
(** A tree of layers without a name that says nothing. *)
Inductive void : tree -> Prop :=
| void_node o s : own_eq o [] -> Forall (fun x => fst x = None /\ void (snd x)) s -> void (Node o s).
(** The same layers, up to layers without a name that say nothing. *)
Inductive same (R : tree -> tree -> Prop) : list (option string * tree) -> list (option string * tree) -> Prop :=
| same_nil : same R [] []
| same_both n t t' s s' : R t t' -> same R s s' -> same R ((n, t) :: s) ((n, t') :: s')
| same_left t s s' : void t -> same R s s' -> same R ((None, t) :: s) s'
| same_right t s s' : void t -> same R s s' -> same R s ((None, t) :: s').
Inductive teq : tree -> tree -> Prop :=
| teq_node o o' s s' : own_eq o o' -> same teq s s' -> teq (Node o s) (Node o' s').
Definition seq : list (option string * tree) -> list (option string * tree) -> Prop := same teq.

Lemma teq_refl : forall t, teq t t.
Proof.
  intros t. induction t as [o s IH] using tree_ind'. constructor; [apply own_eq_refl|].
  induction IH as [|[n x] s Hx _ IHs]; [constructor|]. constructor; [exact Hx | exact IHs].
Qed.
Lemma seq_refl s : seq s s.
Proof. induction s as [|[n x] s IH]; [constructor|]. constructor; [apply teq_refl | exact IH]. Qed.
Lemma teq_sym : forall a b, teq a b -> teq b a.
Proof.
  intros a. induction a as [o s IH] using tree_ind'. intros b Hab. inversion Hab as [o1 o2 s1 s2 E1 F1 A1 A2]; subst.
  constructor; [exact (own_eq_sym _ _ E1)|]. clear Hab E1. induction F1 as [|n t t' s s' T R IHR|t s s' V R IHR|t s s' V R IHR].
  - constructor.
  - constructor; [exact (Forall_inv IH _ T) | exact (IHR (Forall_inv_tail IH))].
  - apply same_right; [exact V | exact (IHR (Forall_inv_tail IH))].
  - apply same_left; [exact V | exact (IHR IH)].
Qed.
Lemma void_teq : forall a b, teq a b -> void a -> void b.
Proof.
  intros a. induction a as [o s IH] using tree_ind'. intros b Hab Ha. inversion Hab as [o1 o2 s1 s2 E1 F1 A1 A2]; subst.
  inversion Ha as [o3 s3 E2 F2 A3]; subst. constructor; [exact (own_eq_trans _ _ _ (own_eq_sym _ _ E1) E2)|].
  clear Hab Ha E1 E2. induction F1 as [|n t t' s s' T R IHR|t s s' V R IHR|t s s' V R IHR].
  - constructor.
  - pose proof (Forall_inv F2) as (N2 & V2). cbn [fst snd] in N2, V2. constructor; [|exact (IHR (Forall_inv_tail IH) (Forall_inv_tail F2))].
    split; [exact N2 | exact (Forall_inv IH _ T V2)].
  - exact (IHR (Forall_inv_tail IH) (Forall_inv_tail F2)).
  - constructor; [split; [reflexivity | exact V] | exact (IHR IH F2)].
Qed.
Lemma void_bare : void bare.
Proof. constructor; [apply own_eq_refl | constructor]. Qed.

Lemma same_trans s1 : Forall (fun x => forall b d, teq (snd x) b -> teq b d -> teq (snd x) d) s1 ->
  forall s2 s3, seq s1 s2 -> seq s2 s3 -> seq s1 s3.
Proof.
  intros IH s2 s3 H12. revert s3. induction H12 as [|n t t' s s' T R IHR|t s s' V R IHR|t s s' V R IHR]; intros s3 H23.
  - exact H23.
  - specialize (IHR (Forall_inv_tail IH)). remember ((n, t') :: s') as x eqn:EX.
    induction H23 as [|n2 u u' z z' T2 R2 _|u z z' V2 R2 _|u z z' V2 R2 IHR2]; [discriminate| | |].
    + injection EX as -> -> ->. constructor; [exact (Forall_inv IH _ _ T T2) | exact (IHR _ R2)].
    + injection EX as <- -> ->. apply same_left; [exact (void_teq _ _ (teq_sym _ _ T) V2) | exact (IHR _ R2)].
    + apply same_right; [exact V2 | exact (IHR2 EX)].
  - apply same_left; [exact V | exact (IHR (Forall_inv_tail IH) _ H23)].
  - specialize (IHR IH). remember ((None, t) :: s') as x eqn:EX.
    induction H23 as [|n2 u u' z z' T2 R2 _|u z z' V2 R2 _|u z z' V2 R2 IHR2]; [discriminate| | |].
    + injection EX as -> -> ->. apply same_right; [exact (void_teq _ _ T2 V) | exact (IHR _ R2)].
    + injection EX as -> ->. exact (IHR _ R2).
    + apply same_right; [exact V2 | exact (IHR2 EX)].
Qed.
Lemma teq_trans : forall a b d, teq a b -> teq b d -> teq a d.
Proof.
  intros a. induction a as [o s IH] using tree_ind'. intros b d Hab Hbd.
  inversion Hab as [o1 o2 s1 s2 E1 F1 A1 A2]; subst. inversion Hbd as [o3 o4 s3 s4 E2 F2 A3 A4]; subst.
  constructor; [exact (own_eq_trans _ _ _ E1 E2)|]. exact (same_trans s IH _ _ F1 F2).
Qed.
Lemma seq_trans a b d : seq a b -> seq b d -> seq a d.
Proof. apply same_trans. apply Forall_forall. intros x _. apply teq_trans. Qed.
Lemma seq_app a a' b b' : seq a a' -> seq b b' -> seq (a ++ b) (a' ++ b').
Proof. intros H1 H2. induction H1; cbn [app]; [exact H2 | constructor 2 | constructor 3 | constructor 4]; assumption. Qed.

(** ** Adding respects equality *)
Lemma at_layer_seq n f g s s' : (forall t t', teq t t' -> teq (f t) (g t')) -> seq s s' -> seq (at_layer n f s) (at_layer n g s').
Proof.
  intros HF H. induction H as [|m t t' s s' T R IH|t s s' V R IH|t s s' V R IH]; cbn [at_layer].
  - constructor; [apply HF, teq_refl | constructor].
  - destruct m as [m|].
    + destruct (m =? n)%string.
      * constructor; [apply HF, T | assumption].
      * constructor; [exact T | exact IH].
    + constructor; [exact T | exact IH].
  - apply same_left; assumption.
  - apply same_right; assumption.
Qed.

Lemma at_path_teq p : forall f g t t', (forall t t', teq t t' -> teq (f t) (g t')) -> teq t t' -> teq (at_path p f t) (at_path p g t').
Proof.
  induction p as [|n p IH]; intros f g t t' HF H; cbn [at_path]; [apply HF, H|].
  inversion H as [o o' s s' E F]; subst. constructor; [exact E|]. apply at_layer_seq; [|exact F].
  intros u u' Hu. apply IH; assumption.
Qed.
Lemma say_teq a b t t' : own_eq a b -> teq t t' -> teq (say a t) (say b t').
Proof. intros E H. inversion H as [o o' s s' E' F]; subst. constructor; [apply own_eq_app; assumption | exact F]. Qed.
Lemma adds_teq_gen l : Forall (fun r => forall ctx t t', teq t t' -> teq (add w ctx r t) (add w ctx r t')) l ->
  forall ctx t t', teq t t' -> teq (adds w ctx l t) (adds w ctx l t').
Proof.
  induction l as [|r l IH]; intros HF ctx t t' H; [exact H|]. cbn [adds]. apply (IH (Forall_inv_tail HF)).
  exact (Forall_inv HF ctx t t' H).
Qed.
Lemma add_teq : forall r ctx t t', teq t t' -> teq (add w ctx r t) (add w ctx r t').
Proof.
  intros r. induction r as [st l IH|b|q l IH|k l IH|n l IH|n|n p b|n b|n b|n|] using rule_ind'; intros ctx t t' H.
  - rewrite !add_Style. revert t t' H. induction (printings (vpx st)) as [|p ps IHp]; intros t t' H; cbn [fold_left]; [exact H|].
    apply IHp. apply (adds_teq_gen l IH). apply say_teq; [apply own_eq_refl | exact H].
  - cbn [add]. apply say_teq; [apply own_eq_refl | exact H].
  - rewrite !add_Cond. destruct (holds w q); [apply (adds_teq_gen l IH), H | exact H].
  - rewrite !add_Wrap. apply (adds_teq_gen l IH), H.
  - destruct n as [n|].
    + rewrite !add_LayerB. apply at_path_teq; [|exact H]. intros u u' Hu. apply (adds_teq_gen l IH), Hu.
    + inversion H as [o o' s s' E F]; subst. rewrite !add_LayerN. constructor; [exact E|]. apply seq_app; [exact F | apply seq_refl].
  - cbn [add]. revert t t' H. induction n as [|x n IHn]; intros t t' H; cbn [fold_left]; [exact H|]. apply IHn.
    apply at_path_teq; [trivial | exact H].
  - cbn [add]. apply say_teq; [apply own_eq_refl | exact H].
  - cbn [add]. apply say_teq; [apply own_eq_refl | exact H].
  - destruct n as [[n|]|]; cbn [add].
    + apply at_path_teq; [|exact H]. intros u u' Hu. apply say_teq; [apply own_eq_refl | exact Hu].
    + inversion H as [o o' s s' E F]; subst. constructor; [exact E|]. apply seq_app; [exact F | apply seq_refl].
    + apply say_teq; [apply own_eq_refl | exact H].
  - cbn [add]. apply say_teq; [apply own_eq_refl | exact H].
  - exact H.
Qed.
Lemma adds_teq l ctx t t' : teq t t' -> teq (adds w ctx l t) (adds w ctx l t').
Proof. apply adds_teq_gen. apply Forall_forall. intros r _. apply add_teq. Qed.

(** ** Lists that mean the same wherever they are *)
Definition leq (ctx : list frame) (l l' : list rule) : Prop := forall t, teq (adds w ctx l t) (adds w ctx l' t).
Lemma leq_refl ctx l : leq ctx l l.
Proof. intros t. apply teq_refl. Qed.
Lemma leq_sym ctx l l' : leq ctx l l' -> leq ctx l' l.
Proof. intros H t. apply teq_sym, H. Qed.
Lemma leq_trans ctx a b d : leq ctx a b -> leq ctx b d -> leq ctx a d.
Proof. intros H1 H2 t. exact (teq_trans _ _ _ (H1 t) (H2 t)). Qed.
Lemma leq_app ctx a a' b b' : leq ctx a a' -> leq ctx b b' -> leq ctx (a ++ b) (a' ++ b').
Proof. intros H1 H2 t. rewrite !adds_app. apply (teq_trans _ (adds w ctx b (adds w ctx a' t))); [apply adds_teq, H1 | apply H2]. Qed.
Lemma leq_intro ctx l l' : Forall named l -> Forall named l' -> own_eq (owns w ctx l) (owns w ctx l') ->
  (forall s, seq (subl w ctx l s) (subl w ctx l' s)) -> leq ctx l l'.
Proof.
  intros N N' E H [o s]. rewrite !adds_node by assumption. constructor; [apply own_eq_app; [apply own_eq_refl | exact E] | apply H].
Qed.
Lemma leq_own ctx l l' : Forall named l -> Forall named l' -> leq ctx l l' -> own_eq (owns w ctx l) (owns w ctx l').
Proof.
  intros N N' H. specialize (H bare). unfold bare in H. rewrite !adds_node in H by assumption. inversion H; subst. assumption.
Qed.

(** ** What equal trees have in common *)
Lemma late_void {A} (f : list event -> option A) : (forall a b, own_eq a b -> f a = f b) -> f [] = None -> forall t, void t -> late f t = None.
Proof.
  intros HF HN t. induction t as [o s IH] using tree_ind'. intros H. inversion H as [o1 s1 E V]; subst.
  cbn [late]. rewrite (HF _ _ E), HN. cbn [orelse]. clear H E. induction IH as [|x s Hx _ IHs]; [reflexivity|].
  cbn [fold_left]. rewrite (Hx (proj2 (Forall_inv V))). exact (IHs (Forall_inv_tail V)).
Qed.
Lemma early_void {A} (f : list event -> option A) : (forall a b, own_eq a b -> f a = f b) -> f [] = None -> forall t, void t -> early f t = None.
Proof.
  intros HF HN t. induction t as [o s IH] using tree_ind'. intros H. inversion H as [o1 s1 E V]; subst.
  cbn [early]. rewrite (HF _ _ E), HN. clear H E. induction IH as [|x s Hx _ IHs]; [reflexivity|].
  cbn [fold_right]. rewrite (Hx (proj2 (Forall_inv V))). exact (IHs (Forall_inv_tail V)).
Qed.
Lemma others_void : forall t path, void t -> others path t = [].
Proof.
  intros t. induction t as [o s IH] using tree_ind'. intros path H. inversion H as [o1 s1 E V]; subst.
  cbn [others]. rewrite (proj2 (proj2 (proj2 E))). cbn [other_events filter app]. clear H E. induction IH as [|x s Hx _ IHs]; [reflexivity|].
  cbn [flat_map]. rewrite (Hx _ (proj2 (Forall_inv V))). exact (IHs (Forall_inv_tail V)).
Qed.
Lemma layers_void : forall t path, void t -> layers path t = [].
Proof.
  intros t. induction t as [o s IH] using tree_ind'. intros path H. inversion H as [o1 s1 E V]; subst.
  cbn [layers]. clear H E. induction IH as [|x s Hx _ IHs]; [reflexivity|].
  cbn [flat_map]. destruct (Forall_inv V) as (N1 & V1). rewrite N1, (Hx _ V1). exact (IHs (Forall_inv_tail V)).
Qed.
Lemma late_eq {A} (f : list event -> option A) : (forall a b, own_eq a b -> f a = f b) -> f [] = None ->
  forall t t', teq t t' -> late f t = late f t'.
Proof.
  intros HF HN t. induction t as [o s IH] using tree_ind'. intros t' H. inversion H as [o1 o' s1 s' E F]; subst.
  cbn [late]. rewrite (HF _ _ E). f_equal. clear H E. generalize (@None A) as x.
  induction F as [|n t t' s s' T R IHR|t s s' V R IHR|t s s' V R IHR]; intros x; cbn [fold_left snd]; [reflexivity| | |].
  - pose proof (Forall_inv IH _ T) as E. cbn [snd] in E. rewrite E. apply IHR, (Forall_inv_tail IH).
  - rewrite (late_void f HF HN _ V). apply IHR, (Forall_inv_tail IH).
  - rewrite (late_void f HF HN _ V). apply IHR, IH.
Qed.
Lemma early_eq {A} (f : list event -> option A) : (forall a b, own_eq a b -> f a = f b) -> f [] = None ->
  forall t t', teq t t' -> early f t = early f t'.
Proof.
  intros HF HN t. induction t as [o s IH] using tree_ind'. intros t' H. inversion H as [o1 o' s1 s' E F]; subst.
  cbn [early]. rewrite (HF _ _ E). f_equal. clear H E.
  induction F as [|n t t' s s' T R IHR|t s s' V R IHR|t s s' V R IHR]; cbn [fold_right snd]; [reflexivity| | |].
  - pose proof (Forall_inv IH _ T) as E. cbn [snd] in E. rewrite E. rewrite (IHR (Forall_inv_tail IH)). reflexivity.
  - rewrite (early_void f HF HN _ V). apply IHR, (Forall_inv_tail IH).
  - rewrite (early_void f HF HN _ V). apply IHR, IH.
Qed.
Lemma cascaded_eq t t' q : teq t t' -> cascaded w q t = cascaded w q t'.
Proof.
  intros H. unfold cascaded. rewrite (early_eq _ (fun a b E => proj1 E q true) eq_refl t t' H), (late_eq _ (fun a b E => proj1 E q false) eq_refl t t' H).
  reflexivity.
Qed.
Lemma keyframes_eq t t' n p : unused_name c n = false -> teq t t' -> keyframes_of n p t = keyframes_of n p t'.
Proof. intros U H. exact (late_eq _ (fun a b E => proj1 (proj2 E) n p U) eq_refl t t' H). Qed.
Lemma registered_eq t t' n : unused_name c n = false -> teq t t' -> registered n t = registered n t'.
Proof. intros U H. exact (late_eq _ (fun a b E => proj1 (proj2 (proj2 E)) n U) eq_refl t t' H). Qed.
Lemma others_eq : forall t t' path, teq t t' -> others path t = others path t'.
Proof.
  intros t. induction t as [o s IH] using tree_ind'. intros t' path H. inversion H as [o1 o' s1 s' E F]; subst.
  cbn [others]. rewrite (proj2 (proj2 (proj2 E))). f_equal. clear H E.
  induction F as [|n t t' s s' T R IHR|t s s' V R IHR|t s s' V R IHR]; cbn [flat_map fst snd]; [reflexivity| | |].
  - pose proof (Forall_inv IH _ (path ++ [n]) T) as E. cbn [snd] in E. rewrite E, (IHR (Forall_inv_tail IH)). reflexivity.
  - rewrite (others_void _ _ V). apply IHR, (Forall_inv_tail IH).
  - rewrite (others_void _ _ V). apply IHR, IH.
Qed.
Lemma layers_eq : forall t t' path, teq t t' -> layers path t = layers path t'.
Proof.
  intros t. induction t as [o s IH] using tree_ind'. intros t' path H. inversion H as [o1 o' s1 s' E F]; subst.
  cbn [layers]. clear H E.
  induction F as [|n t t' s s' T R IHR|t s s' V R IHR|t s s' V R IHR]; cbn [flat_map fst snd]; [reflexivity| | |].
  - pose proof (Forall_inv IH _ (path ++ [n]) T) as E. cbn [snd] in E. rewrite E, (IHR (Forall_inv_tail IH)). reflexivity.
  - rewrite (layers_void _ _ V). apply IHR, (Forall_inv_tail IH).
  - rewrite (layers_void _ _ V). apply IHR, IH.
Qed.
End Equality.
