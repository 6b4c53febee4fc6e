(** * Examples for targets *)
From Coq Require Import List Bool String Ascii NArith.
From Verif Require Import TargetsTable TargetsModel TargetsSpec.
Import ListNotations.
Local Open Scope string_scope.
Local Open Scope list_scope.
Local Open Scope N_scope.

Definition ver (a b c : N) : N := pack a b c.
Definition of_list (l : list (browser * N)) : browsers :=
  fun b => option_map snd (find (fun p => browser_eqb (fst p) b) l).
Definition target (l : list (browser * N)) : targets := Targets (Some (of_list l)) none none.
Definition list_of (bs : browsers) : list (option N) := map bs all_browsers.
Definition compat_row (name : string) := row_of compat_table name.
Definition prefix_row (name : string) := row_of prefix_table name.
Definition distribs : list (string * string) :=
  [("chrome", "120"); ("ios_saf", "15.2-15.3"); ("and_chr", "119.0.1"); ("op_mini", "all"); ("safari", "TP"); ("ios_saf", "16.0")].
(** [@supports (color: lab(...)) { 1 @supports (color: color(display-p3 ...)) and (color: lab(...)) { 2 } 3 } 4] *)
Definition lab_cond : cond := CDecl false "color" (Some [TColor Lab]).
Definition p3_cond : cond := CAnd [CDecl false "color" (Some [TColor P3]); lab_cond].
Definition sheet : rule := Group [Supports lab_cond [Use 1; Supports p3_cond [Use 2]; Use 3]; Use 4].
Definition flags_of (f : features) : list flag := filter f all_flags.
Definition show (o : seen) : nat * list flag * list flag := (at_ o, flags_of (t_exclude (by_rules o)), flags_of (t_exclude (by_handlers o))).
(** A browser with variables and without lab() *)
Definition old_ua : ua := Ua (fun _ v => forallb (fun t => match t with TColor Rgb | TOther => true | _ => false end) v) (fun _ => true) (fun _ => false) (fun _ => false).
Definition new_ua : ua := Ua (fun _ v => forallb (fun t => match t with TColor _ => true | _ => false end) v) (fun _ => true) (fun _ => false) (fun _ => true).
