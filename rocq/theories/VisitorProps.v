(** * Property theorems: visitors (C42, C43) *)
From Coq Require Import List Bool Arith.
From Verif Require Import VisitorModel VisitorSpec VisitorProofs.
Import ListNotations.

(** ** C42: visiting a list applies the callback to the original items, in order, once each, and
    concatenates the results; for any callback, stateful or failing. *)
Theorem C42_map_vec : forall S V (f : S -> V -> call S V) s l,
    map_list S V (vec_ops V) f s l = visit_each f s l.
Proof. exact (fun S V f s l => map_list_seq S V _ f s l (vec_seq V)). Qed.
Print Assumptions C42_map_vec.

Theorem C42_map_smallvec : forall S V (f : S -> V -> call S V) s l,
    map_list S V (smallvec_ops V) f s l = visit_each f s l.
Proof. exact (fun S V f s l => map_list_seq S V _ f s l (small_seq V)). Qed.
Print Assumptions C42_map_smallvec.

(** Rule lists keep a placeholder for a deleted rule; it prints nothing and is not shown to the
    visitor. *)
Theorem C42_map_rules : forall S V (is_ignored : V -> bool) ig (f : S -> V -> call S V) s l,
    is_ignored ig = true -> (forall s, f s ig = CallOk s ig None) ->
    drop_out S V is_ignored (map_list S V (rules_ops V ig) f s l)
    = drop_out S V is_ignored (visit_each f s l).
Proof.
  exact (fun S V is_ig ig f s l Hig Hf =>
           eq_trans (f_equal (drop_out S V is_ig) (map_list_rules S V ig f s l Hf))
                    (rules_drop S V is_ig ig f Hig l s)).
Qed.
Print Assumptions C42_map_rules.

(** The specification never runs out of fuel, so neither does the loop. *)
Theorem C42_terminates : forall S V (f : S -> V -> call S V) l s, visit_each f s l <> OutOfFuel.
Proof. exact visit_each_total. Qed.
Print Assumptions C42_terminates.

(** With a recording callback: the calls are exactly the original items in order. *)
Theorem C42_visits_once : forall V (g : V -> option (value_or_vec V)) l,
    map_list _ V (vec_ops V) (recording g) [] l
    = Done (rev l) (flat_map (fun x => expand x (g x)) l).
Proof.
  exact (fun V g l => eq_trans (map_list_seq _ V _ _ [] l (vec_seq V))
    (eq_trans (visit_each_recording V g l []) (f_equal (fun k => Done k _) (app_nil_r (rev l))))).
Qed.
Print Assumptions C42_visits_once.

(** Enter, children, exit: order of calls and result for pure visitors. *)
Theorem C42_enter_exit_vec : forall V enter exit (children : V -> V) log l,
    visit_list _ V (vec_ops V) (log_visit V enter exit) (log_children V children) log l
    = Done (rev (flat_map (calls_of V enter children) l) ++ log)
           (flat_map (visited enter exit children) l).
Proof. exact (fun V en ex ch log l => visit_list_pure V en ex ch _ log l (vec_seq V)). Qed.
Print Assumptions C42_enter_exit_vec.
Theorem C42_enter_exit_smallvec : forall V enter exit (children : V -> V) log l,
    visit_list _ V (smallvec_ops V) (log_visit V enter exit) (log_children V children) log l
    = Done (rev (flat_map (calls_of V enter children) l) ++ log)
           (flat_map (visited enter exit children) l).
Proof. exact (fun V en ex ch log l => visit_list_pure V en ex ch _ log l (small_seq V)). Qed.
Print Assumptions C42_enter_exit_smallvec.

Definition g42 (x : nat) : option (value_or_vec nat) :=
  match x with 0 => Some (Vec []) | 1 => Some (Value 10) | 2 => Some (Vec [0; 1; 2]) | _ => None end.
Example C42_example :
  map_list _ nat (vec_ops nat) (recording g42) [] [2; 0; 7; 1; 0]
  = Done [0; 1; 7; 0; 2] [0; 1; 2; 7; 10].
Proof. reflexivity. Qed.
Example C42_example_rules :
  map_list _ nat (rules_ops nat 99) (fun log x => if Nat.eqb x 99 then CallOk log x None else recording g42 log x)
     [] [2; 0; 7; 1; 0] = Done [0; 1; 7; 0; 2] [0; 1; 2; 99; 7; 10; 99].
Proof. reflexivity. Qed.

(** ** C43: composed visitors *)
Theorem C43_terminates : forall V apply n seen h (arg : V), seen_set n seen ->
    exists k st, crun V apply n k (cinit V seen h arg) = Some st.
Proof. exact compose_ends. Qed.
Print Assumptions C43_terminates.

(** Each visitor replaces a value at most once per call of the composition, and the composition
    reports a change exactly when some visitor made one. *)
Theorem C43_replaces_once : forall V apply n seen h (arg : V) k st,
    seen_set n seen -> crun V apply n k (cinit V seen h arg) = Some st ->
    exists h1, c_hist st = h1 ++ h /\ (forall v, replacements h1 v <= 1)
          /\ (cresult V st = RNone <-> forall v, ~ replaced h1 v).
Proof. exact compose_once. Qed.
Print Assumptions C43_replaces_once.

(** Every visitor either replaced an earlier value or was offered the final value and left it
    alone.  Missing: visitors that return arrays of two or more values; refuted below. *)
Theorem C43_offers_all_partial : forall V apply n seen h (arg : V) k st,
    at_most_one apply -> seen_set n seen -> crun V apply n k (cinit V seen h arg) = Some st ->
    exists h1, c_hist st = h1 ++ h
          /\ forall x, In x (c_arr st) -> forall w, w < n -> replaced h1 w \/ declined h1 w x.
Proof. exact compose_complete. Qed.
Print Assumptions C43_offers_all_partial.

Definition a43 (h : list (event nat)) (v x : nat) : jsres nat :=
  match v, x with 0, 2 => ROne 3 | 1, 1 => ROne 2 | 2, 3 => RArr [4] | _, _ => RNone end.
Example C43_example :
  exists st, crun nat a43 3 100 (cinit nat (bitset_new 3) [] 1) = Some st
        /\ cresult nat st = ROne 4 /\ List.length (c_hist st) = 4.
Proof. eexists. split; [vm_compute; reflexivity|]. split; reflexivity. Qed.
Example C43_example_single : at_most_one a43.
Proof.
  intros h v x l. unfold a43. destruct v as [|[|[|v]]], x as [|[|[|[|x]]]]; intros H; inversion H; auto.
Qed.

(** Visitor 0 splits 1 into [2; 3]; visitor 1 replaces both 2 and 3 by 9: the 3 is never offered
    to visitor 1. *)
Definition b43 (h : list (event nat)) (v x : nat) : jsres nat :=
  match v, x with 0, 1 => RArr [2; 3] | 1, 2 | 1, 3 => ROne 9 | _, _ => RNone end.
Theorem C43_offers_all_refuted :
  exists apply st x w, crun nat apply 2 100 (cinit nat (bitset_new 2) [] 1) = Some st
    /\ In x (c_arr st) /\ w < 2 /\ (forall r, ~ In (w, x, r) (c_hist st)) /\ apply [] w x <> RNone
    /\ forall y r, In (w, y, r) (c_hist st) -> r <> RNone -> r <> ROne x.
Proof.
  exists b43. eexists. exists 3, 1. split; [vm_compute; reflexivity|]. cbn [c_arr c_hist].
  split; [right; left; reflexivity|]. split; [auto|]. split.
  - intros r H. cbn in H. intuition discriminate.
  - split; [discriminate|]. intros y r H _. cbn in H. intuition congruence.
Qed.
Print Assumptions C43_offers_all_refuted.

(** Visitors of single values: every function is called once, in order, on what its predecessors
    left; nothing is returned exactly when no function changed anything. *)
Theorem C43_simple : forall V (f : list (event V) -> nat -> V -> option V) n h x,
    exists h1 z, pipeline f (seq 0 n) h x (h1 ++ h) z
      /\ (simple_loop V f (seq 0 n) x false h = (Some z, h1 ++ h) /\ (exists v, replaced h1 v)
          \/ simple_loop V f (seq 0 n) x false h = (None, h1 ++ h) /\ forall v, ~ replaced h1 v).
Proof. exact simple_compose. Qed.
Print Assumptions C43_simple.
