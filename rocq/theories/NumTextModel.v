(** * Model of the text of numbers: leading zeros are dropped after the external serializer ran

    The external serializer (cssparser) is a parameter: [s] below is the text it produced. *)
From Coq Require Import Ascii String Bool.
Open Scope string_scope.

Definition zero_char : ascii := "0"%char.
Definition dash_char : ascii := "-"%char.

(** [s.trim_start_matches(c)] for a single character *)
Fixpoint trim_char (c : ascii) (s : string) : string :=
  match s with
  | String d r => if Ascii.eqb d c then trim_char c r else s
  | EmptyString => s
  end.

(** [s.trim_start_matches("-0")]: removes the two characters repeatedly *)
Fixpoint trim_dash_zero (s : string) : string :=
  match s with
  | String d (String z r) =>
      if Ascii.eqb d dash_char && Ascii.eqb z zero_char then trim_dash_zero r else s
  | _ => s
  end.

(** values/number.rs:37-46 [CSSNumber::to_css], for a non-zero number below one in absolute value;
    [neg] is [number < 0.0] *)
Definition number_text (neg : bool) (s : string) : string :=
  if neg then String dash_char (trim_char zero_char (trim_char dash_char s))
  else trim_char zero_char s.

(** values/length.rs:498-506 [serialize_dimension] and values/percentage.rs:55-63
    [Percentage::to_css], same condition *)
Definition dimension_text (neg : bool) (s : string) : string :=
  if neg then String dash_char (trim_dash_zero s) else trim_char zero_char s.
