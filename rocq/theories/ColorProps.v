(** * C37: the text of RGBA colours *)
From Coq Require Import List Bool String Ascii NArith.
From Verif Require Import ColorModel ColorSpec ColorProofs.
Import ListNotations.
Local Open Scope string_scope.
Local Open Scope N_scope.

(** Whatever the targets and the mode, the printed text denotes the same four bytes. *)
Theorem C37_exact : forall (compile_hex minify : bool) (c : rgba), is_color c ->
  read_color (print_rgba compile_hex minify c) = Some (red c, green c, blue c, alpha c).
Proof. exact printed_read. Qed.
Print Assumptions C37_exact.
(** If all targets know [#rrggbbaa], no name and no hexadecimal text of the colour is shorter. *)
Theorem C37_shortest : forall (minify : bool) (c : rgba) (s : string), is_color c -> String.prefix "rgba(" s = false ->
  read_color s = Some (red c, green c, blue c, alpha c) ->
  (String.length (print_rgba false minify c) <= String.length s)%nat.
Proof. exact shortest. Qed.
Print Assumptions C37_shortest.
Example C37_example :
  map (print_rgba false true) [RGBA 0 0 0 0; RGBA 1 20 255 128; RGBA 17 34 51 68; RGBA 0 255 0 255; RGBA 255 0 0 255]
    = ["#0000"; "#0114ff80"; "#1234"; "#0f0"; "red"]
  /\ map (print_rgba true false) [RGBA 0 0 0 0; RGBA 1 20 255 128; RGBA 1 2 3 254] = ["rgba(0, 0, 0, 0)"; "rgba(1, 20, 255, .5)"; "rgba(1, 2, 3, .996)"]
  /\ is_color (RGBA 1 20 255 128) /\ read_color "lime" = Some (0, 255, 0, 255).
Proof. split; [vm_compute; reflexivity|]. split; [vm_compute; reflexivity|]. repeat split. Qed.
