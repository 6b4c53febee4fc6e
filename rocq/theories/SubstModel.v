(** Model of the substitution of variables: [TokenList::substitute_variables],
    /repo/src/properties/custom.rs:1128-1178.  Left out: lists of tokens inside
    colours with unresolved components (they are visited like arguments). *)
From Coq Require Import List Bool String.
From Verif Require Import TokModel.
Import ListNotations.
Local Open Scope bool_scope.

Section Inline.
(** The table of variables that is given. *)
Variable vars : string -> option (list item).

Definition member (n : string) (seen : list string) : bool := existsb (String.eqb n) seen.

(** custom.rs:1150-1177 [VarInliner::visit_token_list], from position [i]: [rest] are the
    tokens from there on; those before are not looked at again.  [seen] is the
    set of the names replaced since the last advance.  The first line of the loop
    visits the token, that is the lists in it: arguments and fallbacks.  A list in
    a token has a set of its own.  Out of fuel: [None]. *)
Fixpoint inline (fuel : nat) (seen : list string) (rest : list item) : option (list item) :=
  match fuel with
  | 0 => None
  | S f =>
      let visit (t : item) : option item :=
        match t with
        | Var n (Some fb) => match inline f [] fb with Some l => Some (Var n (Some l)) | None => None end
        | Env n ix (Some fb) => match inline f [] fb with Some l => Some (Env n ix (Some l)) | None => None end
        | Func n args => match inline f [] args with Some l => Some (Func n l) | None => None end
        | _ => Some t
        end in
      match rest with
      | [] => Some []
      | t :: r =>
          match visit t with
          | None => None
          | Some t' =>
              let advance := match inline f [] r with Some l => Some (t' :: l) | None => None end in
              match t' with
              | Var n fb =>
                  match vars n with
                  | Some value => if member n seen then advance else inline f (n :: seen) (value ++ r)
                  | None =>
                      match fb with
                      | Some x => if member n seen then advance else inline f (n :: seen) (x ++ r)
                      | None => advance
                      end
                  end
              | _ => advance
              end
          end
      end
  end.

(** custom.rs:1130-1134 [substitute_variables]. *)
Definition substitute (fuel : nat) (l : list item) : option (list item) := inline fuel [] l.
End Inline.
