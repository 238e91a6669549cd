(** Model of [solcore/graphing]: graph.py, graph_support.py and Custom_Colours.py.  In the
    comments G, S and C are these files.  Drawing is left to matplotlib. *)
From Coq Require Import Reals ZArith Ascii String List Bool Arith.
From Verif Require Import Common.
From Coq Require Import List.
Import ListNotations.
Open Scope R_scope.
Open Scope list_scope.

(** * Square axes *)
(** The position of an axis in parts of the figure, G:33. *)
Record box := Box { x0 : R; y0 : R; x1 : R; y1 : R }.
(** make_square, G:32-48: figure width and height, and the position. *)
Definition make_square (fw fh : R) (b : box) : box :=
  let aw := fw * (x1 b - x0 b) in
  let ah := fh * (y1 b - y0 b) in
  if Rlt_dec ah aw
  then let n := (aw - ah) / fw in Box (x0 b + n / 2) (y0 b) (x1 b - n / 2) (y1 b)
  else if Rlt_dec aw ah
  then let s := (ah - aw) / fh in Box (x0 b) (y0 b + s / 2) (x1 b) (y1 b - s / 2)
  else b.

(** * Data *)
(** What is given to a graph, S:4-9: an iterable that is not a text, or anything else. *)
Inductive item (A : Type) := Leaf (a : A) | Many (l : list (item A)).
Arguments Leaf {A} a.
Arguments Many {A} l.
(** One element, S:6-9. *)
Fixpoint flat {A} (t : item A) : list A :=
  match t with
  | Leaf a => [a]
  | Many l => (fix go (l : list (item A)) := match l with [] => [] | t :: r => flat t ++ go r end) l
  end.
(** flatten, S:4-9, as a list.  [old] is a Python before 3.10, where [collections.Iterable] was
    removed. *)
Definition flatten {A} (old : bool) (l : list (item A)) : res (list A) :=
  match l with
  | [] => Ok []
  | _ => if old then Ok (flat (Many l)) else Err AttributeError
  end.

(** * Colours of the data *)
(** A colour: one given, or a place in the map, from 0 to 1. *)
Inductive colour := Given (n : nat) | Mapped (x : R).
(** An element of the data, G:142-149: line_format["color"], whether it has an edge or face
    colour, and color_index. *)
Record datum := Datum { d_color : option colour; d_other : bool; d_index : option Z }.
(** The test G:146-149 and 159 *)
Definition plain (d : datum) : bool := match d_color d with Some _ => false | None => negb (d_other d) end.
(** all_color_indexes, G:142-149, from the i-th element on. *)
Fixpoint color_indexes (i : nat) (ds : list datum) : list Z :=
  match ds with
  | [] => []
  | d :: r =>
      let rest := color_indexes (S i) r in
      if plain d then (match d_index d with Some k => k | None => (- Z.of_nat i - 1)%Z end) :: rest else rest
  end.
(** cNorm and scalarMap.to_rgba, G:153-154, 161 and 163: values outside of the range have the
    colours of its ends. *)
Definition to_rgba (n : nat) (k : R) : colour := Mapped (Rmax 0 (Rmin 1 (k / INR n))).
(** G:158-165 from the i-th element on *)
Fixpoint assign_colours (n i : nat) (ds : list datum) : list datum :=
  match ds with
  | [] => []
  | d :: r =>
      (if plain d
       then Datum (Some (to_rgba n (match d_index d with Some k => IZR k | None => INR i end))) (d_other d) (d_index d)
       else d) :: assign_colours n (S i) r
  end.
(** render_data, G:140-165 *)
Definition render (ds : list datum) : list datum :=
  assign_colours (length (nodup Z.eq_dec (color_indexes 0 ds))) 0 ds.

(** * Legend *)
(** What an element adds to the legend: a line its label if it has one (graph_lines.py:66-69), an
    entry of its own its text (graph_lines.py:91-95). *)
Inductive labelled := Line (label : option string) | Entry (label : string).
(** axis.get_legend_handles_labels(), G:189: the labels of the lines. *)
Fixpoint line_labels (ds : list labelled) : list string :=
  match ds with
  | [] => []
  | Line (Some l) :: r => l :: line_labels r
  | _ :: r => line_labels r
  end.
(** legend_additions, G:156 and 169-172, from the i-th element on. *)
Fixpoint additions (i : nat) (ds : list labelled) : list (nat * string) :=
  match ds with
  | [] => []
  | Entry l :: r => (i, l) :: additions (S i) r
  | _ :: r => additions (S i) r
  end.
(** labels.insert(position, label), G:194. *)
Definition insert_at {A} (l : list A) (p : nat) (a : A) : list A := firstn p l ++ a :: skipn p l.
(** The labels of draw_legend, G:189-201; the additions are in order already, so that G:190 does
    nothing. *)
Definition legend (ds : list labelled) : list string :=
  filter (fun l => negb (String.eqb l "None"))
    (fold_left (fun l e => insert_at l (fst e) (snd e)) (additions 0 ds) (line_labels ds)).

(** * Table of colours *)
(** A line of Colours.txt: its parts between " = " (C:45) and whether $END$ is in it (C:60). *)
Record table_line := TLine { t_parts : list string; t_end : bool }.
(** lower() of a letter, C:47. *)
Definition lower_char (a : ascii) : ascii :=
  let n := nat_of_ascii a in if (Nat.leb 65 n && Nat.leb n 90)%bool then ascii_of_nat (n + 32) else a.
(** upper() of a letter, C:63, 66. *)
Definition upper_char (a : ascii) : ascii :=
  let n := nat_of_ascii a in if (Nat.leb 97 n && Nat.leb n 122)%bool then ascii_of_nat (n - 32) else a.
(** lower() and upper() of a text, C:47, 63, 66. *)
Fixpoint map_text (f : ascii -> ascii) (s : string) : string :=
  match s with EmptyString => EmptyString | String a r => String (f a) (map_text f r) end.
(** The list of the digits, C:40. *)
Definition hex_digits : string := "0123456789ABCDEF".
(** HEX2DEC.index, C:52-54. *)
Fixpoint index_in (a : ascii) (s : string) (n : nat) : res nat :=
  match s with
  | EmptyString => Err ValueError
  | String b r => if Ascii.eqb a b then Ok n else index_in a r (S n)
  end.
(** HEX[i] with its index in the list, C:52-54. *)
Definition hex_at (s : string) (i : nat) : res nat :=
  match String.get i s with Some a => index_in a hex_digits 0 | None => Err IndexError end.
(** Two digits as part of 255, C:52-56. *)
Definition channel (s : string) (i : nat) : res R :=
  let! a := hex_at s i in let! b := hex_at s (S i) in Ok (INR (a * 16 + b) / 255).
(** C:49-56 *)
Definition entry (parts : list string) : res (string * (R * R * R)) :=
  match nth_error parts 1 with
  | None => Err IndexError
  | Some hex =>
      let! r := channel hex 1 in let! g := channel hex 3 in let! b := channel hex 5 in Ok (hex, (r, g, b))
  end.
(** The loop C:42-61.  Simplified: the name of the colour is compared as a text; re.fullmatch
    reads it as a regular expression. *)
Fixpoint find_colour (name : string) (t : list table_line) : res (option (string * (R * R * R))) :=
  match t with
  | [] => Ok None
  | l :: r =>
      if String.eqb name (hd ""%string (t_parts l)) then (let! e := entry (t_parts l) in Ok (Some e))
      else if t_end l then Err ValueError else find_colour name r
  end.
(** What is returned, C:64, 67. *)
Inductive answer := Hex (s : string) | Rgb (r g b : R).
(** colours, C:27-69 *)
Definition colours (t : list table_line) (name type : string) : res answer :=
  let! f := find_colour (map_text lower_char name) t in
  let ty := map_text upper_char type in
  if String.eqb ty "HEX" then match f with Some (h, _) => Ok (Hex h) | None => Err KeyError end
  else if String.eqb ty "RGB" then match f with Some (_, (r, g, b)) => Ok (Rgb r g b) | None => Err KeyError end
  else Err ValueError.
