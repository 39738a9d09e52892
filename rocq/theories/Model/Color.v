(** norfair/drawing/color.py *)
From Coq Require Import ZArith Bool Arith Ascii String List.
From Verif Require Import Model.Base Model.Strings.
Import ListNotations.
Local Open Scope nat_scope.

(** A color: (blue, green, red). *)
Definition bgr := (Z * Z * Z)%type.

(** [[a-f0-9]] *)
Definition is_hex (a : ascii) : bool :=
  let n := nat_of_ascii a in ((48 <=? n) && (n <=? 57)) || ((97 <=? n) && (n <=? 102)).
(** The value of a hexadecimal digit. *)
Definition hex_val (a : ascii) : Z :=
  let n := nat_of_ascii a in if n <=? 57 then Z.of_nat n - 48 else Z.of_nat n - 87.
(** [int(two digits, 16)] *)
Definition hex2 (a b : ascii) : Z := hex_val a * 16 + hex_val b.

(** [$] matches at the end of the string and before a newline at the end. *)
Definition at_end (l : list ascii) : bool :=
  match l with [] => true | [c] => Ascii.eqb c newline | _ => false end.

(** color.py:10-44 [hex_to_bgr]: the expressions "#[a-f0-9]{6}$" and "#[a-f0-9]{3}$". *)
Definition hex_to_bgr (s : string) : result bgr :=
  match chars s with
  | "#"%char :: l =>
    match l with
    | a :: b :: c :: l3 =>
      match l3 with
      | d :: e :: f :: l6 =>
        if forallb is_hex [a; b; c; d; e; f] && at_end l6 then Ret (hex2 e f, hex2 c d, hex2 a b)
        else if forallb is_hex [a; b; c] && at_end l3 then Ret (hex2 c c, hex2 b b, hex2 a a)
        else Raise EValueError
      | _ => if forallb is_hex [a; b; c] && at_end l3 then Ret (hex2 c c, hex2 b b, hex2 a a) else Raise EValueError
      end
    | _ => Raise EValueError
    end
  | _ => Raise EValueError
  end.

(** How an attribute of the class is written: a call of [hex_to_bgr] or a tuple. *)
Inductive color_def := CHex (s : string) | CTuple (c : bgr).
(** color.py:56-233 [class Color]. *)
Definition color_table : list (string * color_def) := [
  ("aliceblue", CHex "#f0f8ff"); ("antiquewhite", CHex "#faebd7"); ("aqua", CHex "#00ffff");
  ("aquamarine", CHex "#7fffd4"); ("azure", CHex "#f0ffff"); ("beige", CHex "#f5f5dc"); ("bisque", CHex "#ffe4c4");
  ("black", CHex "#000000"); ("blanchedalmond", CHex "#ffebcd"); ("blue", CHex "#0000ff");
  ("blueviolet", CHex "#8a2be2"); ("brown", CHex "#a52a2a"); ("burlywood", CHex "#deb887");
  ("cadetblue", CHex "#5f9ea0"); ("chartreuse", CHex "#7fff00"); ("chocolate", CHex "#d2691e");
  ("coral", CHex "#ff7f50"); ("cornflowerblue", CHex "#6495ed"); ("cornsilk", CHex "#fff8dc");
  ("crimson", CHex "#dc143c"); ("cyan", CHex "#00ffff"); ("darkblue", CHex "#00008b"); ("darkcyan", CHex "#008b8b");
  ("darkgoldenrod", CHex "#b8860b"); ("darkgray", CHex "#a9a9a9"); ("darkgrey", CHex "#a9a9a9");
  ("darkgreen", CHex "#006400"); ("darkkhaki", CHex "#bdb76b"); ("darkmagenta", CHex "#8b008b");
  ("darkolivegreen", CHex "#556b2f"); ("darkorange", CHex "#ff8c00"); ("darkorchid", CHex "#9932cc");
  ("darkred", CHex "#8b0000"); ("darksalmon", CHex "#e9967a"); ("darkseagreen", CHex "#8fbc8f");
  ("darkslateblue", CHex "#483d8b"); ("darkslategray", CHex "#2f4f4f"); ("darkslategrey", CHex "#2f4f4f");
  ("darkturquoise", CHex "#00ced1"); ("darkviolet", CHex "#9400d3"); ("deeppink", CHex "#ff1493");
  ("deepskyblue", CHex "#00bfff"); ("dimgray", CHex "#696969"); ("dimgrey", CHex "#696969");
  ("dodgerblue", CHex "#1e90ff"); ("firebrick", CHex "#b22222"); ("floralwhite", CHex "#fffaf0");
  ("forestgreen", CHex "#228b22"); ("fuchsia", CHex "#ff00ff"); ("gainsboro", CHex "#dcdcdc");
  ("ghostwhite", CHex "#f8f8ff"); ("gold", CHex "#ffd700"); ("goldenrod", CHex "#daa520"); ("gray", CHex "#808080");
  ("grey", CHex "#808080"); ("green", CTuple (0, 128, 0)); ("greenyellow", CHex "#adff2f");
  ("honeydew", CHex "#f0fff0"); ("hotpink", CHex "#ff69b4"); ("indianred", CHex "#cd5c5c");
  ("indigo", CHex "#4b0082"); ("ivory", CHex "#fffff0"); ("khaki", CHex "#f0e68c"); ("lavender", CHex "#e6e6fa");
  ("lavenderblush", CHex "#fff0f5"); ("lawngreen", CHex "#7cfc00"); ("lemonchiffon", CHex "#fffacd");
  ("lightblue", CHex "#add8e6"); ("lightcoral", CHex "#f08080"); ("lightcyan", CHex "#e0ffff");
  ("lightgoldenrodyellow", CHex "#fafad2"); ("lightgreen", CHex "#90ee90"); ("lightgray", CHex "#d3d3d3");
  ("lightgrey", CHex "#d3d3d3"); ("lightpink", CHex "#ffb6c1"); ("lightsalmon", CHex "#ffa07a");
  ("lightseagreen", CHex "#20b2aa"); ("lightskyblue", CHex "#87cefa"); ("lightslategray", CHex "#778899");
  ("lightslategrey", CHex "#778899"); ("lightsteelblue", CHex "#b0c4de"); ("lightyellow", CHex "#ffffe0");
  ("lime", CHex "#00ff00"); ("limegreen", CHex "#32cd32"); ("linen", CHex "#faf0e6"); ("magenta", CHex "#ff00ff");
  ("maroon", CHex "#800000"); ("mediumaquamarine", CHex "#66cdaa"); ("mediumblue", CHex "#0000cd");
  ("mediumorchid", CHex "#ba55d3"); ("mediumpurple", CHex "#9370db"); ("mediumseagreen", CHex "#3cb371");
  ("mediumslateblue", CHex "#7b68ee"); ("mediumspringgreen", CHex "#00fa9a"); ("mediumturquoise", CHex "#48d1cc");
  ("mediumvioletred", CHex "#c71585"); ("midnightblue", CHex "#191970"); ("mintcream", CHex "#f5fffa");
  ("mistyrose", CHex "#ffe4e1"); ("moccasin", CHex "#ffe4b5"); ("navajowhite", CHex "#ffdead");
  ("navy", CHex "#000080"); ("oldlace", CHex "#fdf5e6"); ("olive", CHex "#808000"); ("olivedrab", CHex "#6b8e23");
  ("orange", CHex "#ffa500"); ("orangered", CHex "#ff4500"); ("orchid", CHex "#da70d6");
  ("palegoldenrod", CHex "#eee8aa"); ("palegreen", CHex "#98fb98"); ("paleturquoise", CHex "#afeeee");
  ("palevioletred", CHex "#db7093"); ("papayawhip", CHex "#ffefd5"); ("peachpuff", CHex "#ffdab9");
  ("peru", CHex "#cd853f"); ("pink", CHex "#ffc0cb"); ("plum", CHex "#dda0dd"); ("powderblue", CHex "#b0e0e6");
  ("purple", CHex "#800080"); ("rebeccapurple", CHex "#663399"); ("red", CHex "#ff0000");
  ("rosybrown", CHex "#bc8f8f"); ("royalblue", CHex "#4169e1"); ("saddlebrown", CHex "#8b4513");
  ("salmon", CHex "#fa8072"); ("sandybrown", CHex "#f4a460"); ("seagreen", CHex "#2e8b57");
  ("seashell", CHex "#fff5ee"); ("sienna", CHex "#a0522d"); ("silver", CHex "#c0c0c0"); ("skyblue", CHex "#87ceeb");
  ("slateblue", CHex "#6a5acd"); ("slategray", CHex "#708090"); ("slategrey", CHex "#708090");
  ("snow", CHex "#fffafa"); ("springgreen", CHex "#00ff7f"); ("steelblue", CHex "#4682b4"); ("tan", CHex "#d2b48c");
  ("teal", CHex "#008080"); ("thistle", CHex "#d8bfd8"); ("tomato", CHex "#ff6347"); ("turquoise", CHex "#40e0d0");
  ("violet", CHex "#ee82ee"); ("wheat", CHex "#f5deb3"); ("white", CHex "#ffffff"); ("whitesmoke", CHex "#f5f5f5");
  ("yellow", CHex "#ffff00"); ("yellowgreen", CHex "#9acd32"); ("tab1", CHex "#1f77b4"); ("tab2", CHex "#aec7e8");
  ("tab3", CHex "#ff7f0e"); ("tab4", CHex "#ffbb78"); ("tab5", CHex "#2ca02c"); ("tab6", CHex "#98df8a");
  ("tab7", CHex "#d62728"); ("tab8", CHex "#ff9896"); ("tab9", CHex "#9467bd"); ("tab10", CHex "#c5b0d5");
  ("tab11", CHex "#8c564b"); ("tab12", CHex "#c49c94"); ("tab13", CHex "#e377c2"); ("tab14", CHex "#f7b6d2");
  ("tab15", CHex "#7f7f7f"); ("tab16", CHex "#c7c7c7"); ("tab17", CHex "#bcbd22"); ("tab18", CHex "#dbdb8d");
  ("tab19", CHex "#17becf"); ("tab20", CHex "#9edae5"); ("cb1", CHex "#0173b2"); ("cb2", CHex "#de8f05");
  ("cb3", CHex "#029e73"); ("cb4", CHex "#d55e00"); ("cb5", CHex "#cc78bc"); ("cb6", CHex "#ca9161");
  ("cb7", CHex "#fbafe4"); ("cb8", CHex "#949494"); ("cb9", CHex "#ece133"); ("cb10", CHex "#56b4e9")
]%string%Z.

Fixpoint lookup {A} (k : string) (l : list (string * A)) : option A :=
  match l with [] => None | (k', v) :: l' => if String.eqb k' k then Some v else lookup k l' end.

(** [getattr(Color, name)].  SIMPLIFICATION: the attributes every class has ("mro", "__doc__", ...) are left out. *)
Definition named_color (name : string) : result bgr :=
  match lookup name color_table with
  | Some (CHex s) => hex_to_bgr s
  | Some (CTuple c) => Ret c
  | None => Raise EAttributeError
  end.

(** A color as given by the user: a string or a sequence of integers. *)
Inductive color_like := ColStr (s : string) | ColTuple (c : bgr).
(** color.py:236-261 [parse_color].  SIMPLIFICATION: sequences have three integers. *)
Definition parse_color (c : color_like) : result bgr :=
  match c with
  | ColStr s => match s with String "#" _ => hex_to_bgr s | _ => named_color s end
  | ColTuple t => Ret t
  end.

(** color.py:264-309 [PALETTES] *)
Definition names_of (prefix : string) (ns : list Z) : list string := map (fun n => (prefix ++ str_of_Z n)%string) ns.
Definition palette_table : list (string * list string) := [
  ("tab10", names_of "tab" [1; 3; 5; 7; 9; 11; 13; 15; 17; 19]);
  ("tab20", names_of "tab" [1; 2; 3; 4; 5; 6; 7; 8; 9; 10; 11; 12; 13; 14; 15; 16; 17; 18; 19; 20]);
  ("colorblind", names_of "cb" [1; 2; 3; 4; 5; 6; 7; 8; 9; 10])
]%string%Z.
Fixpoint parse_all (cs : list color_like) : result (list bgr) :=
  match cs with
  | [] => Ret []
  | c :: cs' =>
    match parse_color c with
    | Raise e => Raise e
    | Ret v => match parse_all cs' with Ret vs => Ret (v :: vs) | Raise e => Raise e end
    end
  end.

(** The class attributes of [Palette]. *)
Record palette := MkPalette { pa_colors : list bgr; pa_default : bgr }.
Definition table_colors (ns : list string) : list bgr :=
  match parse_all (map ColStr ns) with Ret l => l | Raise _ => [] end.
Definition palette0 : palette :=
  MkPalette (table_colors (match lookup "tab10" palette_table with Some ns => ns | None => [] end))
            (match named_color "black" with Ret c => c | Raise _ => (0, 0, 0)%Z end).

(** color.py:330-354 [Palette.set]: a name or a list of colors. *)
Definition set_palette (arg : string + list color_like) (p : palette) : palette * result unit :=
  match arg with
  | inl name =>
    match lookup name palette_table with
    | Some ns => (MkPalette (table_colors ns) (pa_default p), Ret tt)
    | None => (p, Raise EValueError)
    end
  | inr cs =>
    match parse_all cs with
    | Ret l => (MkPalette l (pa_default p), Ret tt)
    | Raise e => (p, Raise e)
    end
  end.
(** color.py:356-366 [Palette.set_default_color] *)
Definition set_default_color (c : color_like) (p : palette) : palette * result unit :=
  match parse_color c with Ret v => (MkPalette (pa_colors p) v, Ret tt) | Raise e => (p, Raise e) end.

(** Python's [hash] of an int (CPython on 64 bit). *)
Definition hash_modulus : Z := 2 ^ 61 - 1.
Definition hash_int (z : Z) : Z :=
  let h := (Z.sgn z * (Z.abs z mod hash_modulus))%Z in if (h =? -1)%Z then (-2)%Z else h.
(** color.py:368-371 [Palette.choose_color], given the hash ([None] for the value None). *)
Definition choose_color (p : palette) (hash : option Z) : result bgr :=
  match hash with
  | None => Ret (pa_default p)
  | Some h =>
    match length (pa_colors p) with
    | O => Raise EZeroDivisionError
    | S _ =>
      match nth_error (pa_colors p) (Z.to_nat (Z.abs h mod Z.of_nat (length (pa_colors p)))) with
      | Some c => Ret c
      | None => Raise EIndexError
      end
    end
  end.
