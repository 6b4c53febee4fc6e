(** * Declaration blocks: checks by computation, for the examples *)
From Coq Require Import List Bool String PeanoNat Lia.
From Verif Require Import VendorPrefixModel ShorthandTable DeclModel DeclSpec DeclProofs DeclSetProofs DeclGetProofs DeclRemoveProofs.
Import ListNotations.
Local Open Scope string_scope.
Local Open Scope list_scope.

Definition one_prefixb (i : pid) : bool :=
  match i with PVp _ p => existsb (fun q => vs_eqb p (vs_one q)) [WebKit; Moz; Ms; Opera; Unprefixed] | _ => true end.
Definition same_lengthb (vs : list value) : bool :=
  match vs with [] => true | v :: r => forallb (fun w => Nat.eqb (List.length w) (List.length v)) r end.
Definition typedb (d : property) : bool :=
  one_prefixb (prop_id d) &&
  match d with
  | PLong i _ => match find_sh i with None => true | Some _ => false end
  | PShort i vs =>
      match find_sh i with
      | None => false
      | Some s => Nat.eqb (List.length vs) (List.length (sh_keys s)) &&
                  match sh_kind s with
                  | KPlain => true
                  | KList => same_lengthb vs
                  | KBackground => match vs with [] => false | _ :: r => same_lengthb r end
                  end
      end
  | PUnparsed _ _ => true
  end.
Lemma same_lengthb_ok : forall vs, same_lengthb vs = true -> same_length vs.
Proof.
  intros [|v r] H; [exists 0; intros v []|]. cbn in H. rewrite forallb_forall in H. exists (List.length v).
  intros w [<- |W]; auto. apply Nat.eqb_eq. apply H. exact W.
Qed.
Lemma typedb_ok : forall d, typedb d = true -> typed d.
Proof.
  intros d H. apply andb_true_iff in H as [H1 H2]. split.
  - unfold one_prefix, one_prefixb in *. destruct (prop_id d) as [n p|n| |n]; auto. apply existsb_exists in H1 as (q & _ & E).
    apply vs_eqb_iff in E. eauto.
  - destruct d as [i v|i vs|i v]; auto.
    + apply find_none_short. destruct (find_sh i); [discriminate|reflexivity].
    + destruct (find_sh i) as [s|] eqn:F; [|discriminate]. apply find_names in F as [A N]. exists s.
      apply andb_true_iff in H2 as [H2 H3]. apply Nat.eqb_eq in H2. repeat (split; auto).
      destruct (sh_kind s); auto using same_lengthb_ok. destruct vs as [|c r]; [discriminate|]. exists c, r. auto using same_lengthb_ok.
Qed.
Definition typed_blockb (b : block) : bool := forallb typedb (b_important b) && forallb typedb (b_normal b).
Lemma typed_blockb_ok : forall b, typed_blockb b = true -> typed_block b.
Proof.
  intros b H. apply andb_true_iff in H as [A B]. rewrite forallb_forall in A, B. intros d [D|D]; apply typedb_ok; auto.
Qed.

Definition regularb (l : pid) : bool :=
  forallb (fun s => forallb (forallb (fun x =>
    negb (String.eqb (lh_name x) (pid_name l)) || Bool.eqb (sh_vp s) (lh_vp x) ||
    (negb (sh_vp s) && vs_eqb (pid_prefix l) (vs_one Unprefixed)))) (sh_keys s)) shorthand_table.
Lemma regularb_ok : forall l, regularb l = true -> regular l.
Proof.
  intros l H s g x T G X N. unfold regularb in H. rewrite forallb_forall in H. specialize (H s T). rewrite forallb_forall in H.
  specialize (H g G). rewrite forallb_forall in H. specialize (H x X). rewrite N, String.eqb_refl in H. cbn [negb orb] in H.
  apply orb_true_iff in H as [H|H]; [left; apply eqb_prop; exact H|]. right. apply andb_true_iff in H as [A B].
  apply negb_true_iff in A. apply vs_eqb_iff in B. auto.
Qed.
Definition regular_propb (p : property) : bool :=
  negb (pid_eqb (prop_id p) PAll) && forallb regularb (longhands_or_self (prop_id p)).
Lemma regular_propb_ok : forall p, typed p -> regular_propb p = true -> regular_prop p.
Proof.
  intros p T H l x X. apply andb_true_iff in H as [A B]. apply negb_true_iff, pid_eqb_neq in A. rewrite forallb_forall in B.
  apply regularb_ok, B. apply (says_say p l x T) in X. exact (say_member p l x T A X).
Qed.
Definition acceptsb (d p : property) : bool :=
  pid_eqb (prop_id d) (prop_id p) || match set_longhand d p with Some _ => true | None => false end.
Lemma acceptsb_iff : forall d p, typed d -> typed p -> regular_prop p -> acceptsb d p = true <-> accepts d p.
Proof.
  intros d p TD TP R. unfold acceptsb. rewrite orb_true_iff, pid_eqb_iff. split.
  - intros [E|E]; [apply accepts_same; exact E|]. destruct (set_longhand d p) as [d'|] eqn:S; [|discriminate]. exact (take_accepts d p d' TD TP R S).
  - intros A. destruct (accepts_take d p R A) as [E|[d' E]]; [left; exact E|right; rewrite E; reflexivity].
Qed.
Definition touchesb (d p : property) : bool :=
  existsb (fun l => match say d l, say p l with Some _, Some _ => true | _, _ => false end) (longhands_or_self (prop_id p)).
Lemma touchesb_iff : forall d p, typed d -> typed p -> prop_id p <> PAll -> touchesb d p = true <-> touches d p.
Proof.
  intros d p TD TP NA. unfold touchesb. rewrite touches_say by auto. rewrite existsb_exists. split.
  - intros (l & _ & H). destruct (say d l) as [x|] eqn:E; [|discriminate]. destruct (say p l) as [y|] eqn:F; [|discriminate]. eauto.
  - intros (l & x & y & A & B). exists l. split; [exact (say_member p l y TP NA B)|]. rewrite A, B. reflexivity.
Qed.
Fixpoint carriedb (ds : list property) (p : property) : bool :=
  match ds with
  | [] => true
  | d :: c => (if acceptsb d p && existsb (fun e => touchesb e p) c then existsb (fun e => acceptsb e p) c else true) && carriedb c p
  end.
Lemma carriedb_ok : forall ds p, all_typed ds -> typed p -> regular_prop p -> prop_id p <> PAll -> carriedb ds p = true -> carried ds p.
Proof.
  intros ds p T TP R NA. induction ds as [|d r IH]; intros H a e c f E A F TO.
  - destruct a; discriminate.
  - apply all_typed_cons in T as [Td T]. cbn [carriedb] in H. apply andb_true_iff in H as [H1 H2].
    destruct a as [|y a]; injection E as <- ->; [|apply (IH T H2 a e c f eq_refl A F TO)].
    apply (acceptsb_iff d p Td TP R) in A. rewrite A in H1.
    assert (X : existsb (fun e => touchesb e p) c = true).
    { apply existsb_exists. exists f. split; auto. apply (proj2 (touchesb_iff f p (T f F) TP NA)). exact TO. }
    rewrite X in H1. cbn [andb] in H1. apply existsb_exists in H1 as (g & G & Q). exists g. split; auto. apply (acceptsb_iff g p (T g G) TP R). exact Q.
Qed.
Definition overruledb (b : block) (p : property) : bool :=
  existsb (fun d => negb (pid_eqb (prop_id d) (prop_id p)) && touchesb d p) (b_important b).
Lemma overruledb_ok : forall b p, typed_block b -> typed p -> prop_id p <> PAll -> overruledb b p = false -> ~ overruled b p.
Proof.
  intros b p T TP NA H (d & D & N & TO). apply (proj2 (touchesb_iff d p (T d (or_introl D)) TP NA)) in TO.
  rewrite <- not_true_iff_false in H. apply H. apply existsb_exists. exists d. split; auto. apply pid_eqb_neq in N. rewrite N, TO. reflexivity.
Qed.
Lemma cascaded_check : forall b l x imp, typed_blockb b = true -> cascade b l = Some (x, imp) -> cascaded b l x imp.
Proof. intros b l x imp T H. apply cascaded_iff; auto. apply typed_blockb_ok. exact T. Qed.
Lemma says_check : forall p l x, typedb p = true -> say p l = Some x -> says p l x.
Proof. intros p l x T H. apply says_say; auto. apply typedb_ok. exact T. Qed.
