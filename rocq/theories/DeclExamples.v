(** * Declaration blocks: data of the examples *)
From Coq Require Import List Bool String.
From Verif Require Import VendorPrefixModel ShorthandTable DeclModel.
Import ListNotations.
Local Open Scope string_scope.
Local Open Scope list_scope.

Definition any (_ : string) (_ : list value) : bool := true.
Definition plainly (n v : string) : property := PLong (PPlain n) [v].
Definition vp (n : string) (q : pfx) : pid := PVp n (vs_one q).
Definition margin (t r b l : string) : property := PShort (PPlain "margin") [[t]; [r]; [b]; [l]].
Definition border (w s c : string) : property := PShort (PPlain "border") [[w]; [s]; [c]].
Definition border_top (w s c : string) : property := PShort (PPlain "border-top") [[w]; [s]; [c]].
Definition transition (n : nat) : property := PShort (vp "transition" Unprefixed) (repeat (repeat "x" n) 4).
Definition border_image (src : string) : property := PShort (vp "border-image" WebKit) [[src]; ["1"]; ["2"]; ["3"]; ["4"]].
Definition place_content (a j : string) : property := PShort (PPlain "place-content") [[a]; [j]].
Definition background (n : nat) : property :=
  PShort (PPlain "background") (["red"] :: repeat (repeat "y" n) 8).
Definition bg_position (x y : list string) : property := PShort (PPlain "background-position") [x; y].

(** [margin-left: 1px; margin: 2px 3px 4px 5px; color: red; padding-inline-start: 1px;] with
    [padding-top: 7px !important] *)
Definition sheet : block :=
  Block [plainly "padding-top" "7px"]
    [plainly "margin-left" "1px"; margin "2px" "3px" "4px" "5px"; plainly "color" "red"; plainly "padding-inline-start" "1px"].
(** [background: …, …; color: red; background-color: blue;] *)
Definition layers : block := Block [] [background 2; plainly "color" "red"; plainly "background-color" "blue"].
(** [margin: 1px; margin-top: 2px;] *)
Definition shadowed : block := Block [] [margin "1px" "1px" "1px" "1px"; plainly "margin-top" "2px"].
(** [margin: 1px !important] *)
Definition locked : block := Block [margin "1px" "1px" "1px" "1px"] [].
(** [border-top-width: 1px; border: 2px solid red] *)
Definition grouped : block := Block [] [plainly "border-top-width" "1px"; border "2px" "solid" "red"].
(** [transition-duration: 1s; transition: …, …] *)
Definition uneven : block := Block [] [PLong (vp "transition-duration" Unprefixed) ["1s"]; transition 2].
(** [margin-top: 1px; margin: var(--x);] *)
Definition pending : block := Block [] [plainly "margin-top" "1px"; PUnparsed (PPlain "margin") ["var(--x)"]].
(** [color: red; all: unset] *)
Definition reset : block := Block [] [plainly "color" "red"; PLong PAll ["unset"]].
(** [transition: … ; color: red] *)
Definition listed : block := Block [] [transition 1; plainly "color" "red"].
(** [-webkit-border-image: …] *)
Definition imaged : block := Block [] [border_image "url(x)"].
(** [place-content: a b] *)
Definition placed : block := Block [] [place_content "start" "end"].
(** [margin: 1px !important; margin-top: 2px] *)
Definition both : block := Block [margin "1px" "1px" "1px" "1px"] [plainly "margin-top" "2px"].
(** [border-top: 1px solid red; border: 2px solid blue] *)
Definition edges : block := Block [] [border_top "1px" "solid" "red"; border "2px" "solid" "blue"].
