(** * Properties of small values *)
From Coq Require Import List String Bool ZArith QArith.
From Verif Require Import ValueModel ValueSpec ValueProofs NumTextModel NumTextSpec NumTextProofs.
Import ListNotations.
Open Scope string_scope.
Open Scope list_scope.

(** ** C21: one to four values, and pairs *)

(** The values written expand to the rect; no shorter list does. *)
Theorem C21_rect_written : forall T (eqb : T -> T -> bool) a b c d,
    (forall x y, eqb x y = true -> x = y) ->
    four_sides (rect_components T eqb (Rect a b c d)) = Some (a, b, c, d).
Proof. exact rect_expands. Qed.
Print Assumptions C21_rect_written.

Theorem C21_rect_shortest : forall T (eqb : T -> T -> bool) a b c d l,
    (forall x, eqb x x = true) ->
    four_sides l = Some (a, b, c, d) -> (List.length (rect_components T eqb (Rect a b c d)) <= List.length l)%nat.
Proof. exact rect_minimal. Qed.
Print Assumptions C21_rect_shortest.

Theorem C21_size_written : forall T (eqb : T -> T -> bool) a b,
    (forall x y, eqb x y = true -> x = y) -> two_values (size2d_components T eqb (Size2D a b)) = Some (a, b).
Proof. exact size_expands. Qed.
Print Assumptions C21_size_written.

Theorem C21_size_shortest : forall T (eqb : T -> T -> bool) a b l,
    (forall x, eqb x x = true) -> two_values l = Some (a, b) ->
    (List.length (size2d_components T eqb (Size2D a b)) <= List.length l)%nat.
Proof. exact size_minimal. Qed.
Print Assumptions C21_size_shortest.

(** For any component type whose text reads back (up to [R]), so do rects, pairs and radii. *)
Theorem C21_rect_round_trip : forall T parse eqb (print : T -> list vtok) (R : T -> T -> Prop) (ok : T -> Prop),
    (forall x rest, ok x -> exists y, parse (print x ++ rest) = Some (y, rest) /\ R x y) ->
    (forall x y z, eqb x y = true -> R x z <-> R y z) ->
    forall rest r, rect_all ok r -> parse rest = None ->
    exists r', parse_rect T parse (print_rect T eqb print r ++ rest) = Some (r', rest) /\ rect_rel R r r'.
Proof. exact rect_round. Qed.
Print Assumptions C21_rect_round_trip.

Theorem C21_size_round_trip : forall T parse eqb (print : T -> list vtok) (R : T -> T -> Prop) (ok : T -> Prop),
    (forall x rest, ok x -> exists y, parse (print x ++ rest) = Some (y, rest) /\ R x y) ->
    (forall x y z, eqb x y = true -> R x z <-> R y z) ->
    forall rest s, size_all ok s -> parse rest = None ->
    exists s', parse_size2d T parse (print_size2d T eqb print s ++ rest) = Some (s', rest) /\ size_rel R s s'.
Proof. exact size_round. Qed.
Print Assumptions C21_size_round_trip.

(** Box sides of lengths and percentages, as parsed for margin, padding, inset. *)
Theorem C21_lengths : forall rest r, rect_all (fun x => lp_ok x = true) r -> vends rest ->
    exists r', parse_rect lp parse_lp (print_rect lp lp_eqb print_lp r ++ rest) = Some (r', rest)
          /\ rect_rel lp_same r r'.
Proof.
  exact (fun rest r H V => rect_round lp parse_lp lp_eqb print_lp lp_same _ parse_print_lp lp_eqb_iff
           rest r H (vends_lp rest V)).
Qed.
Print Assumptions C21_lengths.

(** border-radius, with separate horizontal and vertical radii. *)
Theorem C21_border_radius : forall rest r, radii_all (fun x => lp_ok x = true) r ->
    vends rest -> (forall l, rest <> TkDelim "/" :: l) ->
    exists r', parse_radii lp parse_lp (print_radii lp lp_eqb print_lp r ++ rest) = Some (r', rest)
          /\ radii_rel lp_same r r'.
Proof.
  exact (fun rest r H V N => radii_round lp parse_lp lp_eqb print_lp lp_same _ parse_print_lp lp_eqb_iff
           rest r H (vends_lp rest V) (fun l => eq_refl) N).
Qed.
Print Assumptions C21_border_radius.

Example C21_example :
  let r := Rect (LpLen 1 "em") (LpPct (1#2)) (LpLen 1 "em") (LpLen 0 "vw") in
  rect_all (fun x => lp_ok x = true) r
  /\ print_rect lp lp_eqb print_lp r = [TkDim 1 "em"; TkPct (1#2); TkDim 1 "em"; TkNum 0 (Some 0%Z)]
  /\ rect_components lp lp_eqb (Rect (LpPct 1) (LpPct 2) (LpPct 3) (LpPct 2)) = [LpPct 1; LpPct 2; LpPct 3]
  /\ print_radii lp lp_eqb print_lp (Radii (Size2D (LpPct 1) (LpPct 2)) (Size2D (LpPct 1) (LpPct 2))
        (Size2D (LpPct 1) (LpPct 2)) (Size2D (LpPct 1) (LpPct 3)))
     = [TkPct 1; TkDelim "/"; TkPct 2; TkPct 2; TkPct 2; TkPct 3].
Proof. repeat split. Qed.

(** ** C45: positions *)

(** Whatever is parsed is printed, minified or not, as text that reads back as the same point of
    every area. *)
Theorem C45_position_round_trip : forall minify p rest, position_ok p = true -> vends rest ->
    exists p', parse_position (print_position minify p ++ rest) = Some (p', rest)
          /\ forall m w h, qpair_eq (position_px m w h p) (position_px m w h p').
Proof. exact position_round. Qed.
Print Assumptions C45_position_round_trip.

Theorem C45_parsed : forall l p r, parse_position l = Some (p, r) -> position_ok p = true.
Proof. exact parse_position_ok. Qed.
Print Assumptions C45_parsed.

Example C45_example :
  parse_position [TkIdent "Bottom"; TkDim 5 "px"; TkIdent "center"; TkComma]
    = Some (Position PCenter (PSide SEnd (Some (LpLen 5 "px"))), [TkComma])
  /\ print_position true (Position PCenter (PSide SEnd (Some (LpLen 5 "px"))))
     = [TkIdent "center"; TkIdent "bottom"; TkDim 5 "px"]
  /\ print_position true (Position (PSide SEnd None) (PSide SStart None)) = [TkPct 1; TkNum 0 (Some 0%Z)].
Proof. repeat split. Qed.

(** ** C46: times *)
Theorem C46_time_round_trip : forall t rest, exists t',
    parse_time (print_time t ++ rest) = Some (t', rest) /\ time_ms t' == time_ms t.
Proof. exact time_round. Qed.
Print Assumptions C46_time_round_trip.

Example C46_example :
  print_time (Milliseconds 150) = [TkDim (150 / 1000) "s"] /\ print_time (Seconds (1 # 20)) = [TkDim ((1 # 20) * 1000) "ms"].
Proof. split; reflexivity. Qed.

(** ** C47: easing functions *)
Theorem C47_easing_round_trip : forall e rest, exists e',
    parse_easing (print_easing e ++ rest) = Some (e', rest)
    /\ curve_same (easing_curve e) (easing_curve e').
Proof. exact easing_round. Qed.
Print Assumptions C47_easing_round_trip.

Example C47_example :
  print_easing (CubicBezier (42 # 100) 0 (116 # 200) 1) = [TkIdent "ease-in-out"]
  /\ parse_easing [TkFun "STEPS" [TkNum 3 (Some 3%Z)]] = Some (Steps 3 SpEnd, []).
Proof. split; reflexivity. Qed.

(** ** C48: leading zeros *)

(** Dropping the leading zero of a plain number keeps its value. *)
Theorem C48_number_text : forall s q rest neg, read_number s = Some (q, rest) -> ~ q == 0 ->
    (neg = true <-> q < 0) -> read_number (number_text neg s) = Some (q, rest).
Proof. exact number_text_same. Qed.
Print Assumptions C48_number_text.

(** The same for dimensions and percentages, if a negative text starts with "-0".
    Missing: negative values in scientific notation, refuted below. *)
Theorem C48_dimension_text_partial : forall s q rest neg, read_number s = Some (q, rest) -> ~ q == 0 ->
    (neg = true <-> q < 0) -> (neg = true -> exists t, s = ("-0" ++ t)%string) ->
    read_number (dimension_text neg s) = Some (q, rest).
Proof. exact dimension_text_same. Qed.
Print Assumptions C48_dimension_text_partial.

(** If the external serializer writes a tiny negative number in scientific notation, the result is
    not a number any more. *)
Theorem C48_scientific_refuted : exists s q rest,
    read_number s = Some (q, rest) /\ q < 0 /\ -1 < q /\ read_number (dimension_text true s) = None.
Proof. exact (ex_intro _ "-1e-7px" (ex_intro _ _ (ex_intro _ _ (conj eq_refl (conj eq_refl (conj eq_refl eq_refl)))))). Qed.
Print Assumptions C48_scientific_refuted.

Example C48_example :
  read_number "-0.50em" = Some (- (inject_Z 50 * pow10 (-2) * pow10 0), "em")
  /\ dimension_text true "-0.50em" = "-.50em" /\ number_text false "0.25" = ".25".
Proof. repeat split. Qed.
