(** * What the text of a colour means, from CSS Color Module Level 4 *)
From Coq Require Import List Bool String Ascii NArith.
Import ListNotations.
Local Open Scope string_scope.
Local Open Scope N_scope.

(** ** Named colours *)
Definition css_names : list (string * (N * N * N)) :=
  [("aliceblue", (240, 248, 255)); ("antiquewhite", (250, 235, 215)); ("aqua", (0, 255, 255));
   ("aquamarine", (127, 255, 212)); ("azure", (240, 255, 255)); ("beige", (245, 245, 220));
   ("bisque", (255, 228, 196)); ("black", (0, 0, 0)); ("blanchedalmond", (255, 235, 205)); ("blue", (0, 0, 255));
   ("blueviolet", (138, 43, 226)); ("brown", (165, 42, 42)); ("burlywood", (222, 184, 135));
   ("cadetblue", (95, 158, 160)); ("chartreuse", (127, 255, 0)); ("chocolate", (210, 105, 30));
   ("coral", (255, 127, 80)); ("cornflowerblue", (100, 149, 237)); ("cornsilk", (255, 248, 220));
   ("crimson", (220, 20, 60)); ("cyan", (0, 255, 255)); ("darkblue", (0, 0, 139)); ("darkcyan", (0, 139, 139));
   ("darkgoldenrod", (184, 134, 11)); ("darkgray", (169, 169, 169)); ("darkgreen", (0, 100, 0));
   ("darkgrey", (169, 169, 169)); ("darkkhaki", (189, 183, 107)); ("darkmagenta", (139, 0, 139));
   ("darkolivegreen", (85, 107, 47)); ("darkorange", (255, 140, 0)); ("darkorchid", (153, 50, 204));
   ("darkred", (139, 0, 0)); ("darksalmon", (233, 150, 122)); ("darkseagreen", (143, 188, 143));
   ("darkslateblue", (72, 61, 139)); ("darkslategray", (47, 79, 79)); ("darkslategrey", (47, 79, 79));
   ("darkturquoise", (0, 206, 209)); ("darkviolet", (148, 0, 211)); ("deeppink", (255, 20, 147));
   ("deepskyblue", (0, 191, 255)); ("dimgray", (105, 105, 105)); ("dimgrey", (105, 105, 105));
   ("dodgerblue", (30, 144, 255)); ("firebrick", (178, 34, 34)); ("floralwhite", (255, 250, 240));
   ("forestgreen", (34, 139, 34)); ("fuchsia", (255, 0, 255)); ("gainsboro", (220, 220, 220));
   ("ghostwhite", (248, 248, 255)); ("gold", (255, 215, 0)); ("goldenrod", (218, 165, 32));
   ("gray", (128, 128, 128)); ("green", (0, 128, 0)); ("greenyellow", (173, 255, 47)); ("grey", (128, 128, 128));
   ("honeydew", (240, 255, 240)); ("hotpink", (255, 105, 180)); ("indianred", (205, 92, 92));
   ("indigo", (75, 0, 130)); ("ivory", (255, 255, 240)); ("khaki", (240, 230, 140));
   ("lavender", (230, 230, 250)); ("lavenderblush", (255, 240, 245)); ("lawngreen", (124, 252, 0));
   ("lemonchiffon", (255, 250, 205)); ("lightblue", (173, 216, 230)); ("lightcoral", (240, 128, 128));
   ("lightcyan", (224, 255, 255)); ("lightgoldenrodyellow", (250, 250, 210)); ("lightgray", (211, 211, 211));
   ("lightgreen", (144, 238, 144)); ("lightgrey", (211, 211, 211)); ("lightpink", (255, 182, 193));
   ("lightsalmon", (255, 160, 122)); ("lightseagreen", (32, 178, 170)); ("lightskyblue", (135, 206, 250));
   ("lightslategray", (119, 136, 153)); ("lightslategrey", (119, 136, 153)); ("lightsteelblue", (176, 196, 222));
   ("lightyellow", (255, 255, 224)); ("lime", (0, 255, 0)); ("limegreen", (50, 205, 50));
   ("linen", (250, 240, 230)); ("magenta", (255, 0, 255)); ("maroon", (128, 0, 0));
   ("mediumaquamarine", (102, 205, 170)); ("mediumblue", (0, 0, 205)); ("mediumorchid", (186, 85, 211));
   ("mediumpurple", (147, 112, 219)); ("mediumseagreen", (60, 179, 113)); ("mediumslateblue", (123, 104, 238));
   ("mediumspringgreen", (0, 250, 154)); ("mediumturquoise", (72, 209, 204)); ("mediumvioletred", (199, 21, 133));
   ("midnightblue", (25, 25, 112)); ("mintcream", (245, 255, 250)); ("mistyrose", (255, 228, 225));
   ("moccasin", (255, 228, 181)); ("navajowhite", (255, 222, 173)); ("navy", (0, 0, 128));
   ("oldlace", (253, 245, 230)); ("olive", (128, 128, 0)); ("olivedrab", (107, 142, 35));
   ("orange", (255, 165, 0)); ("orangered", (255, 69, 0)); ("orchid", (218, 112, 214));
   ("palegoldenrod", (238, 232, 170)); ("palegreen", (152, 251, 152)); ("paleturquoise", (175, 238, 238));
   ("palevioletred", (219, 112, 147)); ("papayawhip", (255, 239, 213)); ("peachpuff", (255, 218, 185));
   ("peru", (205, 133, 63)); ("pink", (255, 192, 203)); ("plum", (221, 160, 221));
   ("powderblue", (176, 224, 230)); ("purple", (128, 0, 128)); ("rebeccapurple", (102, 51, 153));
   ("red", (255, 0, 0)); ("rosybrown", (188, 143, 143)); ("royalblue", (65, 105, 225));
   ("saddlebrown", (139, 69, 19)); ("salmon", (250, 128, 114)); ("sandybrown", (244, 164, 96));
   ("seagreen", (46, 139, 87)); ("seashell", (255, 245, 238)); ("sienna", (160, 82, 45));
   ("silver", (192, 192, 192)); ("skyblue", (135, 206, 235)); ("slateblue", (106, 90, 205));
   ("slategray", (112, 128, 144)); ("slategrey", (112, 128, 144)); ("snow", (255, 250, 250));
   ("springgreen", (0, 255, 127)); ("steelblue", (70, 130, 180)); ("tan", (210, 180, 140));
   ("teal", (0, 128, 128)); ("thistle", (216, 191, 216)); ("tomato", (255, 99, 71));
   ("turquoise", (64, 224, 208)); ("violet", (238, 130, 238)); ("wheat", (245, 222, 179));
   ("white", (255, 255, 255)); ("whitesmoke", (245, 245, 245)); ("yellow", (255, 255, 0));
   ("yellowgreen", (154, 205, 50))].

(** ** Hexadecimal notation *)
Definition hex_value (c : ascii) : option N :=
  let n := N_of_ascii c in
  if (48 <=? n) && (n <=? 57) then Some (n - 48)
  else if (97 <=? n) && (n <=? 102) then Some (n - 87)
  else if (65 <=? n) && (n <=? 70) then Some (n - 55)
  else None.
Fixpoint hex_values (s : string) : option (list N) :=
  match s with
  | "" => Some []
  | String c r => match hex_value c, hex_values r with Some x, Some l => Some (x :: l) | _, _ => None end
  end.
Definition hex_color (s : string) : option (N * N * N * N) :=
  match hex_values s with
  | Some [r; g; b] => Some (17 * r, 17 * g, 17 * b, 255)
  | Some [r; g; b; a] => Some (17 * r, 17 * g, 17 * b, 17 * a)
  | Some [r; r'; g; g'; b; b'] => Some (16 * r + r', 16 * g + g', 16 * b + b', 255)
  | Some [r; r'; g; g'; b; b'; a; a'] => Some (16 * r + r', 16 * g + g', 16 * b + b', 16 * a + a')
  | _ => None
  end.

(** ** The function rgba() with numbers and commas *)
Definition dec_value (c : ascii) : option N :=
  let n := N_of_ascii c in if (48 <=? n) && (n <=? 57) then Some (n - 48) else None.
(** The value of a run of digits, and how many there are *)
Fixpoint numeral (acc : N) (count : nat) (s : string) : option (N * nat) :=
  match s with
  | "" => Some (acc, count)
  | String c r => match dec_value c with Some d => numeral (10 * acc + d) (S count) r | None => None end
  end.
Fixpoint cut (c : ascii) (s : string) : string * option string :=
  match s with
  | "" => ("", None)
  | String x r => if Ascii.eqb x c then ("", Some r) else let (a, b) := cut c r in (String x a, b)
  end.
(** A number without sign or exponent: numerator and number of decimals *)
Definition number (s : string) : option (N * nat) :=
  match cut "." s with
  | (w, None) => match w with "" => None | _ => option_map (fun p => (fst p, 0%nat)) (numeral 0 0 w) end
  | (w, Some f) => match f with
                   | "" => None
                   | _ => match numeral 0 0 w with Some (n, _) => numeral n 0 f | None => None end
                   end
  end.
Fixpoint skip_spaces (s : string) : string :=
  match s with String " " r => skip_spaces r | _ => s end.
Definition byte_of (s : string) : option N :=
  match number s with Some (n, O) => Some (N.min n 255) | _ => None end.
(** The byte nearest to [255 * n / 10 ^ d] *)
Definition alpha_byte (s : string) : option N :=
  match number s with
  | Some (n, d) => let one := 10 ^ N.of_nat d in Some ((2 * 255 * N.min n one + one) / (2 * one))
  | None => None
  end.
Definition rgba_args (s : string) : option (N * N * N * N) :=
  match cut "," s with
  | (r, Some s1) =>
      match cut "," (skip_spaces s1) with
      | (g, Some s2) =>
          match cut "," (skip_spaces s2) with
          | (b, Some s3) =>
              match cut ")" (skip_spaces s3) with
              | (a, Some "") =>
                  match byte_of r, byte_of g, byte_of b, alpha_byte a with
                  | Some x, Some y, Some z, Some w => Some (x, y, z, w)
                  | _, _, _, _ => None
                  end
              | _ => None
              end
          | _ => None
          end
      | _ => None
      end
  | _ => None
  end.

(** The red, green, blue and alpha bytes that a colour denotes.  Names and functions are in lower case
    here. *)
Definition read_color (s : string) : option (N * N * N * N) :=
  match s with
  | String "#" r => hex_color r
  | String "r" (String "g" (String "b" (String "a" (String "(" r)))) => rgba_args r
  | _ =>
      if String.eqb s "transparent" then Some (0, 0, 0, 0)
      else match find (fun p => String.eqb s (fst p)) css_names with
           | Some (_, (r, g, b)) => Some (r, g, b, 255)
           | None => None
           end
  end.
