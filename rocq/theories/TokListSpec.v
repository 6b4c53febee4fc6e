(** What a list of tokens stands for, which tokens may stand side by side, and
    what reading a value must keep. *)
From Coq Require Import List Bool String Ascii PeanoNat NArith ZArith QArith.
From Verif Require Import IdentSpec NumTextSpec TokSpec TokModel.
Import ListNotations.
Local Open Scope bool_scope.
Local Open Scope string_scope.

(** ** What a token is for a browser *)

Definition number_of (n : num) : Q := Qred (dec_value (n_dec n)).
Definition match_char (m : match_op) : ascii :=
  match m with
  | Include => "~" | Dash => "|" | Prefix => "^" | Suffix => "$" | Substring => "*"
  end%char.

Definition reading (t : token) : list tok :=
  match t with
  | TIdent n => [KIdent n]
  | TAt n => [KAt n]
  | THash n | TIdHash n => [KHash n]
  | TString s => [KString s]
  | TUrl s => [KUrl s]
  | TFunction n => [KFunction n]
  | TDelim c => [KDelim c]
  | TNumber n => [KNumber (number_of n)]
  | TPercent n => [KPercent (number_of n)]
  | TDimension n u => [KDimension (number_of n) u]
  | TSpace _ => [KSpace]
  | TComment _ => []
  | TColon => [KColon] | TSemicolon => [KSemicolon] | TComma => [KComma]
  | TMatch m => [KDelim (match_char m); KDelim "="%char]
  | TCDO => [KCDO] | TCDC => [KCDC]
  | TOpen b => [KOpen b] | TClose b => [KClose b]
  end.

(** An address may be written with or without quotes. *)
Inductive Means : token -> list tok -> Prop :=
  | MToken : forall t, Means t (reading t)
  | MQuoted : forall u, Means (TUrl u) [KFunction "url"; KString u; KClose Paren].

Inductive MeansAll : list token -> list tok -> Prop :=
  | MANil : MeansAll [] []
  | MACons : forall t ts k ks, Means t k -> MeansAll ts ks -> MeansAll (t :: ts) (k ++ ks)%list.

(** ** Tokens that can come from a text *)

Definition name_ok (n : string) : bool := nonempty n && no_nul n.

(** A number below one is written with a zero before its point, except for
    positive ones in scientific notation (those below zero are a finding). *)
Definition num_ok (n : num) : bool :=
  dec_ok (n_dec n)
  && (negb (n_small n)
      || (String.eqb (d_int (n_dec n)) "0" && nonempty (d_frac (n_dec n)))
      || (negb (d_neg (n_dec n))
          && negb (match d_int (n_dec n) with String c _ => is 48 c | "" => true end))).

(** A unit that does not look like an exponent (those that do are a finding);
    the unit [E] and those that begin with [E-] are written in lower case. *)
Definition unit_ok (u : string) : bool :=
  name_ok u
  && negb match u with
          | String c (String d _) => ((is 101 c || is 69 c) && digit_char d) || (is 69 c && is_dash d)
          | String c "" => is 69 c
          | "" => false
          end.

Fixpoint no_end (c : string) : bool :=
  match c with
  | String a r =>
      negb (is 42 a && match r with String b _ => is 47 b | "" => false end) && no_end r
  | "" => true
  end.
Fixpoint all_blank (w : string) : bool :=
  match w with String c r => blank c && all_blank r | "" => true end.

(** The characters that are delimiters when nothing else fits. *)
Definition delimiter (c : ascii) : bool :=
  existsb (fun n => is n c)
    [33; 35; 36; 37; 38; 42; 43; 45; 46; 47; 60; 61; 62; 63; 64; 94; 96; 124; 126]%nat
  || in_range 1 8 c || in_range 14 31 c || is 11 c || is 127 c.

Definition fine (t : token) : bool :=
  match t with
  | TIdent n | TAt n | THash n | TIdHash n | TFunction n => name_ok n
  | TString s | TUrl s => no_nul s
  | TDelim c => delimiter c
  | TNumber n | TPercent n => num_ok n
  | TDimension n u => num_ok n && unit_ok u
  | TSpace w => nonempty w && all_blank w
  | TComment c => no_end c
  | _ => true
  end.

(** ** Neighbours (CSS Syntax Level 3, section 9) *)

Definition numeral (u : token) : bool :=
  match u with TNumber _ | TPercent _ | TDimension _ _ => true | _ => false end.
Definition wordy (u : token) : bool :=
  match u with TIdent _ | TFunction _ | TUrl _ | TCDC => true | _ => false end.
Definition delim_is (n : nat) (u : token) : bool :=
  match u with TDelim c => is n c | _ => false end.

(** May [u] follow [t] without anything between them? *)
Definition apart (t u : token) : bool :=
  match t with
  | TIdent n =>
      negb (numeral u || wordy u || delim_is 45 u || match u with TOpen Paren => true | _ => false end)
      && negb (String.eqb n "--" && delim_is 62 u)
  | TAt _ | THash _ | TIdHash _ | TDimension _ _ => negb (numeral u || wordy u || delim_is 45 u)
  | TNumber _ => negb (numeral u || wordy u || delim_is 37 u)
  | TFunction n => negb (is_url n) || match u with TString _ => true | _ => false end
  | TDelim c =>
      if is 35 c then negb (numeral u || wordy u || delim_is 45 u)
      else if is 43 c || is 46 c then negb (numeral u)
      else if is 45 c then negb (numeral u || wordy u || delim_is 45 u)
      else if is 47 c then
        negb (delim_is 42 u || match u with TMatch Substring => true | _ => false end)
      else if is 60 c then negb (delim_is 33 u)
      else if is 64 c then negb (wordy u)
      else true
  | _ => true
  end.

(** The functions that need an argument to be read as what they are. *)
Definition may_end (t : token) : bool :=
  match t with TFunction n => negb (is_url n) | _ => true end.

Fixpoint all_apart (l : list token) : bool :=
  match l with
  | [] => true
  | t :: r => match r with [] => may_end t | u :: _ => apart t u end && all_apart r
  end.

(** Comments are dropped when the output is minified. *)
Definition kept (minify : bool) (l : list token) : list token :=
  if minify then filter (fun t => match t with TComment _ => false | _ => true end) l else l.

(** The text after a value: the end, or what ends a declaration or block. *)
Definition stops (r : string) : bool :=
  match r with "" => true | String c _ => existsb (fun n => is n c) [41; 59; 125]%nat end.

(** ** The tokens of items *)

Definition fallback_space (minify : bool) (l : list item) : list token :=
  if starts_space l || minify then [] else [TSpace " "].

Fixpoint tokens_of (minify : bool) (i : item) : list token :=
  let all := fix go (l : list item) : list token :=
    match l with [] => [] | i :: r => (tokens_of minify i ++ go r)%list end in
  let fb (f : option (list item)) : list token :=
    match f with
    | None => []
    | Some l => TComma :: fallback_space minify l ++ all l
    end%list in
  match i with
  | Tok t => [t]
  | Typed ts => ts
  | Url u => [TUrl u]
  | Dashed n => [TIdent n]
  | Var n f => ([TFunction "var"; TIdent n] ++ fb f ++ [TClose Paren])%list
  | Env n ix f =>
      ([TFunction "env"; TIdent n] ++ flat_map (fun x => [TSpace " "; TNumber x]) ix ++ fb f
         ++ [TClose Paren])%list
  | Func n args => (TFunction n :: all args ++ [TClose Paren])%list
  end.
Definition all_tokens (minify : bool) (l : list item) : list token := flat_map (tokens_of minify) l.

(** ** What reading keeps *)

Definition spaces (k : list tok) : Prop := Forall (fun t => t = KSpace) k.

(** [k'] is [k] without some of the white space at its ends. *)
Definition Trimmed (k k' : list tok) : Prop :=
  exists a b, spaces a /\ spaces b /\ k = (a ++ k' ++ b)%list.

Definition between_tokens (t : tree) : bool :=
  match t with Leaf (TSpace _) | Leaf (TComment _) => true | _ => false end.

Section Keep.
Variable o : readers.

(** What a part of the source comes to.  Typed values are what the readers of
    typed values make of them; everything else is there, in order, with the same
    meaning; white space at the ends of arguments and around the name of a
    variable may go. *)
Inductive Kept : tree -> list tok -> Prop :=
  | KLeaf : forall t k, Means t k -> Kept (Leaf t) k
  | KDim : forall n u ts k, o_dimension o n u = Some ts -> MeansAll ts k -> Kept (Leaf (TDimension n u)) k
  | KHex : forall h ts k, o_hash o h = Some ts -> MeansAll ts k -> Kept (Leaf (THash h)) k
  | KIdHex : forall h ts k, o_hash o h = Some ts -> MeansAll ts k -> Kept (Leaf (TIdHash h)) k
  | KColor : forall f args ts k, o_color o f args = Some ts -> MeansAll ts k -> Kept (Call f args) k
  | KBlock : forall b body k, KeptAll body k -> Kept (Block b body) (KOpen b :: k ++ [KClose b])%list
  | KCall : forall f args k k', KeptAll args k -> Trimmed k k' ->
      Kept (Call f args) (KFunction f :: k' ++ [KClose Paren])%list
  | KQuotedUrl : forall s1 u s2 k,
      forallb between_tokens s1 = true -> forallb between_tokens s2 = true -> Means (TUrl u) k ->
      Kept (Call "url" (s1 ++ Leaf (TString u) :: s2))%list k
  | KVar : forall f s1 n rest k, f = "var" \/ f = "env" ->
      forallb between_tokens s1 = true -> KeptFallback rest k ->
      Kept (Call f (s1 ++ Leaf (TIdent n) :: rest))%list
           (KFunction f :: KIdent n :: k ++ [KClose Paren])%list
with KeptFallback : list tree -> list tok -> Prop :=
  | KNone : forall s, forallb between_tokens s = true -> KeptFallback s []
  | KIndex : forall s x rest k, forallb between_tokens s = true -> n_int x = true ->
      KeptFallback rest k ->
      KeptFallback (s ++ Leaf (TNumber x) :: rest)%list (KSpace :: KNumber (number_of x) :: k)
  | KFallback : forall s fb sp k k', forallb between_tokens s = true -> spaces sp ->
      KeptAll fb k -> Trimmed k k' ->
      KeptFallback (s ++ Leaf TComma :: fb)%list (KComma :: sp ++ k')%list
with KeptAll : list tree -> list tok -> Prop :=
  | KNil : KeptAll [] []
  | KCons : forall t ts k ks, Kept t k -> KeptAll ts ks -> KeptAll (t :: ts) (k ++ ks)%list.

End Keep.

(** Tokens of a source that are [fine], and readers that write [fine] tokens. *)
Fixpoint fine_tree (t : tree) : bool :=
  let all := fix go (l : list tree) : bool := match l with [] => true | x :: r => fine_tree x && go r end in
  match t with
  | Leaf t => fine t
  | Block _ body => all body
  | Call f args => name_ok f && all args
  end.
Definition fine_readers (o : readers) : Prop :=
  (forall f args ts, o_color o f args = Some ts -> forallb fine ts = true)
  /\ (forall h ts, o_hash o h = Some ts -> forallb fine ts = true)
  /\ (forall n u ts, o_dimension o n u = Some ts -> forallb fine ts = true).

(** ** Values whose tokens do not touch *)

(** [u] may follow anything (but the opening of an address). *)
Definition free_before (u : token) : bool :=
  match u with
  | TIdent _ | TFunction _ | TUrl _ | TCDC | TNumber _ | TPercent _ | TDimension _ _ => false
  | TOpen Paren | TMatch Substring => false
  | TDelim c => negb (existsb (fun n => is n c) [33; 37; 42; 45; 62]%nat)
  | _ => true
  end.
(** Anything may follow [t]. *)
Definition free_after (t : token) : bool :=
  match t with
  | TIdent _ | TAt _ | THash _ | TIdHash _ | TNumber _ | TDimension _ _ => false
  | TFunction n => negb (is_url n)
  | TDelim c => negb (existsb (fun n => is n c) [35; 43; 45; 46; 47; 60; 64]%nat)
  | _ => true
  end.

Section Spaced.
Variable o : readers.
Variable minify : bool.

(** The first and the last token of a part of the source; typed values may
    begin and end with anything. *)
Definition first_of (t : tree) : option token :=
  match t with
  | Leaf (THash h) | Leaf (TIdHash h) => match o_hash o h with Some _ => None | None => Some (THash h) end
  | Leaf (TDimension n u) => match o_dimension o n u with Some _ => None | None => Some (TDimension n u) end
  | Leaf u => Some u
  | Block b _ => Some (TOpen b)
  | Call f args => match o_color o f args with Some _ => None | None => Some (TFunction f) end
  end.
Definition last_of (t : tree) : option token :=
  match t with
  | Block b _ => Some (TClose b)
  | Call f args => match o_color o f args with Some _ => None | None => Some (TClose Paren) end
  | Leaf _ => first_of t
  end.
Definition set_apart (x y : tree) : bool :=
  match last_of x, first_of y with
  | Some t, Some u => apart t u
  | Some t, None => free_after t
  | None, Some u => free_before u
  | None, None => false
  end.

Definition dropped (t : tree) : bool :=
  minify && match t with Leaf (TComment _) => true | _ => false end.
Definition remaining (l : list tree) : list tree := filter (fun t => negb (dropped t)) l.

(** Between two neighbours that could run together stands something that
    separates them (not a comment, if comments are dropped). *)
Fixpoint gaps (l : list tree) : bool :=
  match l with
  | x :: r => match r with y :: _ => set_apart x y | [] => true end && gaps r
  | [] => true
  end.

Fixpoint spaced (t : tree) : bool :=
  let all := fix go (l : list tree) : bool := match l with [] => true | x :: r => spaced x && go r end in
  match t with
  | Leaf _ => true
  | Block _ body => gaps (remaining body) && all body
  | Call f args => (negb (is_url f) || String.eqb f "url") && gaps (remaining args) && all args
  end.
Definition spaced_value (l : list tree) : bool := gaps (remaining l) && forallb spaced l.

Definition apart_readers : Prop :=
  let good ts := kept minify ts <> [] /\ all_apart (kept minify ts) = true in
  (forall f args ts, o_color o f args = Some ts -> good ts)
  /\ (forall h ts, o_hash o h = Some ts -> good ts)
  /\ (forall n u ts, o_dimension o n u = Some ts -> good ts).
End Spaced.

(** ** Values that become others: the source [text] is read as [src]; what is
    printed is not what [src] stands for. *)
Definition Changes (o : readers) (minify : bool) (text : string) (src : list tree) : Prop :=
  exists k0 l k1, Lexes text k0 "" /\ KeptAll o src k0 /\ read_list o 500 src = Some l
    /\ Lexes (print minify l) k1 "" /\ squeeze k1 <> squeeze k0.
