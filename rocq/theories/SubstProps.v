(** * C70: variables are substituted as CSS says *)
From Coq Require Import List Bool String.
From Verif Require Import TokSpec TokModel TokListSpec TokExamples SubstModel SubstSpec SubstProofs SubstExamples.
Import ListNotations.
Local Open Scope string_scope.

(** If no variable depends on itself, and no value or fallback is empty, the substitution ends, and each reference, at any depth, is replaced by the
    value of the variable, in which the same is done, or, if there is none, by the fallback, or stays.  Missing: circular references, empty values. *)
Theorem C70_substituted_partial :
  forall (vars : string -> option (list item)) (rank : string -> nat),
    Acyclic vars rank -> Solid vars ->
  forall l : list item, solid l ->
    exists r, Resolves vars l r /\ ends_with (fun fuel => substitute vars fuel l) r.
Proof. exact substitute_resolves. Qed.
Print Assumptions C70_substituted_partial.
Example C70_substituted_example :
  Acyclic vars1 rank1 /\ Solid vars1 /\ solid list1
  /\ substitute vars1 99 list1
     = Some [Func "g" [num1 "1"; Var "--m" None; word "x"; Func "f" [word "y"]]; Var "--m" None; num1 "1"; Var "--m" None].
Proof. split; [exact vars1_acyclic|]. split; [exact vars1_solid|]. split; [exact list1_solid|]. vm_compute. reflexivity. Qed.

(** There is one such result. *)
Theorem C70_one_result :
  forall (vars : string -> option (list item)) (l r r' : list item), Resolves vars l r -> Resolves vars l r' -> r = r'.
Proof. intros vars l r r' H H'. exact (proj1 (resolves_once vars) l r H r' H'). Qed.
Print Assumptions C70_one_result.

(** In it no reference is left, at any depth, but those to variables without value and without fallback. *)
Theorem C70_nothing_left :
  forall (vars : string -> option (list item)) (l r : list item), Resolves vars l r ->
  forall u n fb, In u r -> Within (Var n fb) u -> vars n = None /\ fb = None.
Proof. exact nothing_left. Qed.
Print Assumptions C70_nothing_left.

(** A variable that refers to itself behind another token: the substitution never ends. *)
Theorem C70_circular_refuted :
  forall (vars : string -> option (list item)) (a : string) (x : token) (v rest : list item),
    vars a = Some (Tok x :: Var a None :: v) -> forall fuel, substitute vars fuel (Var a None :: rest) = None.
Proof. exact never_ends. Qed.
Print Assumptions C70_circular_refuted.
Example C70_circular_example :
  table [("--a", [word "x"; Var "--a" None])] "--a" = Some [word "x"; Var "--a" None]
  /\ substitute (table [("--a", [Var "--b" None]); ("--b", [Var "--a" None])]) 9 [Var "--a" None] = Some [Var "--a" None].
Proof. split; vm_compute; reflexivity. Qed.

(** An empty variable: the second of two references that touch is taken for a circular one, and stays. *)
Theorem C70_empty_refuted :
  let vars := table [("--e", [])] in let l := [Var "--e" None; Var "--e" None] in
  Acyclic vars (fun _ => 0) /\ solid l /\ Resolves vars l [] /\ ends_with (fun fuel => substitute vars fuel l) [Var "--e" None].
Proof.
  split; [|split; [|split]].
  - intros n v m w H (u & fb & I & W). unfold table in H. cbn [find fst] in H. destruct (String.eqb n "--e"); [|discriminate].
    injection H as <-. destruct I.
  - intros n u I W. withins.
  - apply (RCons _ _ _ [] []); [eapply RValue; [reflexivity|constructor]|].
    apply (RCons _ _ _ [] []); [eapply RValue; [reflexivity|constructor]|constructor].
  - exists 5. intros f' L. do 5 (destruct f' as [|f']; [exfalso; do 5 (apply le_S_n in L || inversion L); fail|]). reflexivity.
Qed.
Print Assumptions C70_empty_refuted.

(** The values of references that touch run together when they are printed to be parsed again: [var(--a)var(--b)] with the values 1 and 2. *)
Theorem C70_touching_refuted :
  let vars := table [("--a", [num1 "1"]); ("--b", [num1 "2"])] in let l := [Var "--a" None; Var "--b" None] in
  exists r, Resolves vars l r /\ substitute vars 9 l = Some r
    /\ Means (TNumber (whole "1" false)) [KNumber (number_of (whole "1" false))]
    /\ Lexes (print false r) [KNumber (number_of (whole "12" false))] "".
Proof.
  exists [num1 "1"; num1 "2"]. split; [|split; [reflexivity|split; [apply MToken|apply (lex_lexes 9); reflexivity]]].
  apply (RCons _ _ _ [_] [_]); [eapply RValue; [reflexivity|]|].
  - apply (RCons _ _ _ [_] []); constructor.
  - apply (RCons _ _ _ [_] []); [eapply RValue; [reflexivity|]|constructor]. apply (RCons _ _ _ [_] []); constructor.
Qed.
Print Assumptions C70_touching_refuted.
