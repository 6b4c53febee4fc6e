(** Examples for the theorems about lists of tokens. *)
From Coq Require Import List Bool String Ascii PeanoNat NArith ZArith QArith.
From Verif Require Import IdentSpec TokSpec TokModel TokListSpec.
Import ListNotations.
Local Open Scope bool_scope.
Local Open Scope string_scope.
Local Open Scope nat_scope.

(** Reading a whole text. *)
Fixpoint lex (fuel : nat) (s : string) : option (list tok) :=
  match s, fuel with
  | "", _ => Some []
  | _, 0 => None
  | _, S f => let (k, r) := next s in match lex f r with Some ks => Some (k ++ ks)%list | None => None end
  end.

Lemma lex_lexes : forall fuel s k, lex fuel s = Some k -> Lexes s k "".
Proof.
  induction fuel as [|f IH]; intros [|c s] k H; cbn [lex] in H; try discriminate;
    try (injection H as <-; constructor).
  destruct (next (String c s)) as [k1 r] eqn:E. destruct (lex f r) as [ks|] eqn:L; [|discriminate].
  injection H as <-. eapply LStep; [discriminate|exact E|apply IH; exact L].
Qed.

(** A text is read in one way. *)
Lemma lexes_once : forall s k, Lexes s k "" -> forall k', Lexes s k' "" -> k = k'.
Proof.
  intros s k H. remember "" as e eqn:Ee. revert Ee. induction H as [s|s k1 s' k2 r NE E H IH]; intros Ee k' H'; subst.
  - inversion H' as [|s k1 s' k2 r NE E H]; subst; [reflexivity|congruence].
  - inversion H' as [|s0 k3 s2 k4 r0 NE' E' H2]; subst; [congruence|]. rewrite E in E'. injection E' as <- <-.
    f_equal. apply IH; [reflexivity|exact H2].
Qed.

Definition digits (i f : string) (neg : bool) : dec := {| d_neg := neg; d_int := i; d_frac := f; d_exp := None |}.
Definition whole (i : string) (sign : bool) : num :=
  {| n_dec := digits i "" false; n_whole := true; n_small := false; n_sign := sign; n_int := true |}.
Definition point (i f : string) (small : bool) : num :=
  {| n_dec := digits i f false; n_whole := false; n_small := small; n_sign := false; n_int := false |}.
Definition tiny : num :=
  {| n_dec := {| d_neg := true; d_int := "1"; d_frac := ""; d_exp := Some (true, "7") |};
     n_whole := false; n_small := true; n_sign := true; n_int := false |}.

(** A red colour, and nothing else with a type of its own. *)
Definition red_only : readers :=
  {| o_color := fun f _ => if String.eqb f "rgb" then Some [TIdent "red"] else None;
     o_hash := fun h => if String.eqb h "ff0000" then Some [TIdent "red"] else None;
     o_dimension := fun _ _ => None |}.

Lemma red_only_fine : fine_readers red_only.
Proof.
  split; [|split].
  - intros f args ts H. cbn in H. destruct (String.eqb f "rgb"); [|discriminate]. injection H as <-. reflexivity.
  - intros h ts H. cbn in H. destruct (String.eqb h "ff0000"); [|discriminate]. injection H as <-. reflexivity.
  - discriminate.
Qed.

(** [ 1px solid var( --a , #ff0000 )/0.5 calc(2*(x)) url("a b") ] *)
Definition value : list tree :=
  [Leaf (TSpace " "); Leaf (TDimension (whole "1" false) "px"); Leaf (TSpace " ");
   Leaf (TIdent "solid"); Leaf (TSpace "  ");
   Call "var" [Leaf (TSpace " "); Leaf (TIdent "--a"); Leaf (TSpace " "); Leaf TComma; Leaf (TSpace " ");
               Leaf (TIdHash "ff0000"); Leaf (TSpace " ")];
   Leaf (TDelim "/"); Leaf (TNumber (point "0" "5" true)); Leaf (TSpace " ");
   Call "calc" [Leaf (TNumber (whole "2" false)); Leaf (TDelim "*"); Block Paren [Leaf (TIdent "x")]];
   Leaf (TComment " c "); Leaf (TSpace " "); Call "url" [Leaf (TString "a b")]].

Lemma red_only_apart : forall m, apart_readers red_only m.
Proof.
  intros m. split; [|split].
  - intros f args ts H. cbn in H. destruct (String.eqb f "rgb"); [|discriminate]. injection H as <-. destruct m; split; discriminate || reflexivity.
  - intros h ts H. cbn in H. destruct (String.eqb h "ff0000"); [|discriminate]. injection H as <-. destruct m; split; discriminate || reflexivity.
  - discriminate.
Qed.

Lemma leaves_kept : forall o ts, KeptAll o (map Leaf ts) (flat_map reading ts).
Proof. intros o. induction ts as [|t ts IH]; cbn [map flat_map]; constructor; [apply KLeaf; constructor|exact IH]. Qed.

Lemma leaves_change : forall o m text ts l k1, lex 99 text = Some (flat_map reading ts) ->
  read_list o 500 (map Leaf ts) = Some l -> lex 99 (print m l) = Some k1 ->
  squeeze k1 <> squeeze (flat_map reading ts) -> Changes o m text (map Leaf ts).
Proof.
  intros o m text ts l k1 A B C D. exists (flat_map reading ts), l, k1.
  split; [eapply lex_lexes; exact A|]. split; [apply leaves_kept|]. split; [exact B|]. split; [eapply lex_lexes; exact C|exact D].
Qed.

(** [1.0]: the external serializer writes 1. *)
Definition one_point : num :=
  {| n_dec := digits "1" "" false; n_whole := true; n_small := false; n_sign := false; n_int := false |}.
Definition half : num := point "0" "5" true.
Definition newline : string := String (ascii_of_nat 10) "".
Definition backslash_token : token := TDelim (ascii_of_nat 92).

Ltac change_of ts :=
  eapply (leaves_change _ _ _ ts);
  [vm_compute; reflexivity | vm_compute; reflexivity | vm_compute; reflexivity | vm_compute; discriminate].
