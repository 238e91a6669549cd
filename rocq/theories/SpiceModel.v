(** Model of the SPICE netlist writers and readers: [solve_pv_module] and
    [spice_junction] (spice/pv_module_solver.py:6-158), [create_node],
    [create_header] and [solve_circuit_quasi3D] (spice/quasi_3D_solver.py:81-328).
    The SPICE engine itself (spice/spice.py:21-72) is outside the model. *)
From Coq Require Import Reals String Ascii List Bool ZArith Arith Decimal DecimalString.
From Verif Require Import Common NpModel MatStrModel.
From Coq Require Import List.
Import ListNotations.
Open Scope R_scope.
Open Scope list_scope.

(** [str(z)] of an int, used by every [format] and [str] call of the two files (for [spice_junction], pv_module_solver.py:133-158). *)
Definition str_int (z : Z) : text := list_ascii_of_string (NilZero.string_of_int (Z.to_int z)).
(** [str(n)] of a non-negative int (for [zfill3], quasi_3D_solver.py:101-109). *)
Definition str_nat (n : nat) : text := list_ascii_of_string (NilZero.string_of_uint (Nat.to_uint n)).

(** * Modules *)

(** The device part of an element line: a current source, a diode referring to a
    model, a resistor, the bias source; pv_module_solver.py:100-111, 148-153. *)
Inductive device :=
| Source (i : R)
| Diode (model : text)
| Resistor (r : R)
| Bias.
(** The lines of the netlist; pv_module_solver.py:71, 100-114, 148-153.  A node is a
    number (printed in decimal).  The parameters of a model are (is, n, eg); the model
    of the bypass diodes has none.  The lines [.plot] and [.end], which are constant,
    are left out. *)
Inductive line :=
| Element (name : text) (n1 n2 : nat) (d : device)
| ModelLine (name : text) (pars : option (R * R * R))
| Options (temp : R)
| Sweep (v0 v1 dv : R).

(** The parameters of a junction collected in the arrays of pv_module_solver.py:31-50. *)
Record jpar := mkJpar { p_isc : R; p_i01 : R; p_n1 : R; p_i02 : R; p_n2 : R; p_eg : R; p_rsh : R }.

(** [spice_junction], pv_module_solver.py:133-158. *)
Definition spice_junction (jc : Z) (nc : nat) (isc : R) (p : jpar) : list line :=
  [ Element ("i"%char :: str_int jc) nc (nc + 1) (Source isc);
    Element ("d"%char :: str_int (2 * jc - 1)) (nc + 1) nc (Diode (t "diode" ++ str_int (2 * jc - 1)));
    ModelLine (t "diode" ++ str_int (2 * jc - 1)) (Some (p_i01 p, p_n1 p, p_eg p));
    Element ("d"%char :: str_int (2 * jc)) (nc + 1) nc (Diode (t "diode" ++ str_int (2 * jc)));
    ModelLine (t "diode" ++ str_int (2 * jc)) (Some (p_i02 p, p_n2 p, p_eg p));
    Element ("r"%char :: str_int (2 * jc)) (nc + 1) nc (Resistor (p_rsh p)) ].

(** The loop over the junctions of a cell, pv_module_solver.py:83-94: the lines, the
    photocurrents and the two counters. *)
Fixpoint junction_loop (factor : R) (ps : list jpar) (jc : Z) (nc : nat) : list line * list R * Z * nat :=
  match ps with
  | [] => ([], [], jc, nc)
  | p :: ps' =>
      let jc1 := (jc + 1)%Z in
      let isc := p_isc p * factor in
      let '(ls, is, jc2, nc2) := junction_loop factor ps' jc1 (nc + 1) in
      (spice_junction jc1 nc isc p ++ ls, isc :: is, jc2, nc2)
  end.

(** The loop over the cells, pv_module_solver.py:77-108; one factor per cell (line 86
    reads [jsc_random_normal[n - 1]] for n = 1 .. totalcells). *)
Fixpoint cell_loop (rs : R) (ps : list jpar) (factors : list R) (jc : Z) (nc : nat) : list line * list (list R) * nat :=
  match factors with
  | [] => ([], [], nc)
  | f :: factors' =>
      let '(ls, is, jc1, nc1) := junction_loop f ps jc nc in
      let series := Element ("r"%char :: str_int (2 * jc1 - 1)) (nc1 + 1) nc1 (Resistor rs) in
      let nc2 := (nc1 + 1)%nat in
      let bypass := Element ("d"%char :: str_int (2 * jc1 + 1)) nc nc2 (Diode (t "bypassdiode")) in
      let '(ls', is', nc3) := cell_loop rs ps factors' (jc1 + 1) nc2 in
      (ls ++ series :: bypass :: ls', is :: is', nc3)
  end.

(** The attributes of a junction after the cell has been solved; None where missing (for [junction_pars], pv_module_solver.py:39-50). *)
Record junc := mkJunc { a_jsc : option R; a_j01 : option R; a_n1 : option R; a_j02 : option R; a_n2 : option R;
                        a_eg : option R; a_rshunt : option R }.
(** [x.attr] of a possibly missing attribute (for [junction_pars], pv_module_solver.py:39-50). *)
Definition attr (o : option R) : res R := match o with Some x => Ok x | None => Err AttributeError end.
(** [x.attr if hasattr(x, 'attr') else d] (for [junction_pars], pv_module_solver.py:39-50). *)
Definition attr_or (o : option R) (d : R) : R := match o with Some x => x | None => d end.
(** The body of the loop pv_module_solver.py:39-50 (the AttributeError is raised again
    with another message). *)
Definition junction_pars (area : R) (j : junc) : res jpar :=
  let! jsc := attr (a_jsc j) in
  let! j01 := attr (a_j01 j) in
  let n1 := attr_or (a_n1 j) 1 in
  let! j02 := attr (a_j02 j) in
  let n2 := attr_or (a_n2 j) 2 in
  let! eg := attr (a_eg j) in
  let rsh := match a_rshunt j with Some r => Rmin (r / area) (10 ^ 14) | None => 10 ^ 14 end in
  Ok (mkJpar (jsc * area) (j01 * area) n1 (j02 * area) n2 eg rsh).
(** The loop itself, pv_module_solver.py:39. *)
Fixpoint all_pars (area : R) (l : list junc) : res (list jpar) :=
  match l with
  | [] => Ok []
  | j :: l' => let! p := junction_pars area j in let! ps := all_pars area l' in Ok (p :: ps)
  end.

(** Line 61 and line 65 of pv_module_solver.py.  [np.random.normal(0, sigma, n)] is n
    draws z of the standard normal distribution times sigma; the draws are an argument
    of the model.  [max] of an empty array raises ValueError. *)
Definition dispersion (sigma : R) (draws shade : list R) : res (list R) :=
  let rnd := map (fun z => sigma * z) draws in
  let! m := np_max rnd in
  Ok (map (fun p => Rabs (1 - m * sigma + sigma * fst p) * (1 - snd p)) (combine rnd shade)).

(** [solve_pv_module], pv_module_solver.py:25-114, after the single cell has been
    solved: the netlist and the photocurrents.  [totalcells] is the length of [draws];
    [shading] is already flattened.  The temperature is in kelvin. *)
Definition solve_pv_module (area : option R) (r_series temp : R) (juncs : list junc) (draws : list R)
    (shading : option (list R)) (sigma v0 v1 dv : R) : res (list line * list (list R)) :=
  let a := attr_or area 1 in
  let rs := Rmax (r_series / a) (/ 10 ^ 14) in
  let! ps := all_pars a juncs in
  let! shade := match shading with
                | Some s => if Nat.eqb (length s) (length draws) then Ok s else Err AssertionError
                | None => Ok (repeat 0 (length draws))
                end in
  let! factors := dispersion sigma draws shade in
  let '(ls, is, last) := cell_loop rs ps factors 0 0 in
  Ok (ModelLine (t "bypassdiode") None :: ls ++
      [ Options (temp - 273); Element (t "vbias") last 0 Bias; Sweep v0 v1 dv ], is).

(** * Quasi-3D circuits *)

(** [str(n).zfill(3)], quasi_3D_solver.py:101-109. *)
Definition zfill3 (n : nat) : text := let s := str_nat n in repeat "0"%char (3 - length s) ++ s.
(** [loc], quasi_3D_solver.py:101-103. *)
Definition loc (j x y : nat) : text := str_nat j ++ "_"%char :: zfill3 x ++ "_"%char :: zfill3 y.

(** The node names, quasi_3D_solver.py:108, 114-151: top, bottom and metal of a
    junction at a pixel, the ground "0" and the external contact "in". *)
Inductive node := Top (j x y : nat) | Bot (j x y : nat) | Met (j x y : nat) | Ground | Ext.
(** With [node], quasi_3D_solver.py:108, 114-151. *)
Definition node_text (n : node) : text :=
  match n with
  | Top j x y => t "t_" ++ loc j x y
  | Bot j x y => t "b_" ++ loc j x y
  | Met j x y => t "m_" ++ loc j x y
  | Ground => t "0"
  | Ext => t "in"
  end.

(** A line of the body, quasi_3D_solver.py:113-155: an element with its name, its two
    nodes and its value (a diode model or a number), or a print command. *)
Inductive qvalue := QModel (m : text) | QNum (x : R).
(** With [qvalue], quasi_3D_solver.py:113-155. *)
Inductive qline :=
| QElement (name : text) (n1 n2 : node) (v : qvalue)
| QPrint (ns : list node).

(** The type of a node, quasi_3D_solver.py:81. *)
Inductive kind := Normal | Finger | Bus.
(** With [kind], quasi_3D_solver.py:81. *)
Definition is_metal (k : kind) : bool := match k with Normal => false | _ => true end.

(** The electrical arguments of [create_node] (for [create_junction], quasi_3D_solver.py:100-159). *)
Record qpar := mkQpar { q_isc : list R; q_top : list R; q_bot : list R; q_rsh : list R; q_rser : list R }.

(** The body of the loop of [create_node], quasi_3D_solver.py:100-159, for junction j
    of n; [s] is Ly / Lx.  Array reads beyond the end (the arrays have equal lengths in
    the caller) read as 0. *)
Definition create_junction (k : kind) (n j x y : nat) (s : R) (q : qpar) (xm ym contact : R) : list qline :=
  let l := loc j x y in
  let lx := loc j (x + 1) y in
  let ly := loc j x (y + 1) in
  let low := if Nat.eqb (j + 1) n then Ground else Top (j + 1) x y in
  let g (a : list R) := nth j a 0 in
  [ QElement (t "d1_" ++ l) (Top j x y) (Bot j x y) (QModel (t "diode1_" ++ str_nat j));
    QElement (t "d2_" ++ l) (Top j x y) (Bot j x y) (QModel (t "diode2_" ++ str_nat j));
    QElement (t "i" ++ l) (Bot j x y) (Top j x y) (QNum (g (q_isc q)));
    QElement (t "Rshunt_" ++ l) (Top j x y) (Bot j x y) (QNum (g (q_rsh q)));
    QElement (t "RtX" ++ l ++ t "to" ++ lx) (Top j x y) (Top j (x + 1) y) (QNum (g (q_top q) / s));
    QElement (t "RtY" ++ l ++ t "to" ++ ly) (Top j x y) (Top j x (y + 1)) (QNum (g (q_top q) * s));
    QElement (t "RbX" ++ l ++ t "to" ++ lx) (Bot j x y) (Bot j (x + 1) y) (QNum (g (q_bot q) / s));
    QElement (t "RbY" ++ l ++ t "to" ++ ly) (Bot j x y) (Bot j x (y + 1)) (QNum (g (q_bot q) * s));
    QElement (t "Rseries" ++ l ++ t "to" ++ node_text low) (Bot j x y) low (QNum (g (q_rser q))) ] ++
  (if Nat.eqb j 0 then
     match k with
     | Finger =>
         [ QElement (t "Rcontact" ++ l) (Top j x y) (Met j x y) (QNum contact);
           QElement (t "RbusX" ++ l ++ t "to" ++ lx) (Met j x y) (Met j (x + 1) y) (QNum (xm / s));
           QElement (t "RbusY" ++ l ++ t "to" ++ ly) (Met j x y) (Met j x (y + 1)) (QNum (ym * s)) ]
     | Bus =>
         [ QElement (t "Rcontact" ++ l) (Top j x y) (Met j x y) (QNum contact);
           QElement (t "RbusX" ++ l ++ t "to" ++ lx) (Met j x y) (Met j (x + 1) y) (QNum (/ 10 ^ 16));
           QElement (t "RbusY" ++ l ++ t "to" ++ ly) (Met j x y) (Met j x (y + 1)) (QNum (/ 10 ^ 16));
           QElement (t "Rext" ++ l) Ext (Met j x y) (QNum (/ 10 ^ 16)) ]
     | Normal => []
     end
   else []) ++
  [ QPrint (if Nat.eqb j 0 && is_metal k then [Top j x y; Bot j x y; Met j x y] else [Top j x y; Bot j x y]) ].

(** [create_node], quasi_3D_solver.py:81-161. *)
Definition create_node (k : kind) (x y : nat) (s : R) (q : qpar) (xm ym contact : R) : list qline :=
  let n := length (q_isc q) in
  flat_map (fun j => create_junction k n j x y s q xm ym contact) (seq 0 n).

(** The arguments of [solve_circuit_quasi3D] used to write the body, after scaling,
    quasi_3D_solver.py:226-242; the two masks are functions of the pixel. *)
Record grid := mkGrid { g_nx : nat; g_ny : nat; g_s : R; g_isc : list R; g_top : list R; g_bot : list R;
                        g_rsh : list R; g_rser : list R; g_metal : R; g_contact : R;
                        g_inj : nat -> nat -> R; g_con : nat -> nat -> R }.
(** The type of a pixel: [shadow] is contacts > 55 and [pads] contacts > 200,
    quasi_3D_solver.py:241-242, 272-286. *)
Definition pixel_kind (g : grid) (x y : nat) : kind :=
  if Rle_lt_dec (g_con g x y) 55 then Normal
  else if Rle_lt_dec (g_con g x y) 200 then Finger else Bus.
(** One pass of the double loop, quasi_3D_solver.py:265-286: [metalR], the
    photocurrents and the node. *)
Definition pixel (g : grid) (x y : nat) : list qline :=
  let k := pixel_kind g x y in
  let sh := if is_metal k then 1 else 0 in
  let metalR := Rmax (g_metal g * sh) (/ 10 ^ 16) + / 10 ^ 16 * (1 - sh) in
  let isc := match k with Normal => map (fun i => g_inj g x y / 255 * i) (g_isc g) | _ => map (fun i => 0 * i) (g_isc g) end in
  create_node k x y (g_s g) (mkQpar isc (g_top g) (g_bot g) (g_rsh g) (g_rser g)) metalR metalR (g_contact g).
(** The body of the netlist, quasi_3D_solver.py:255, 265-286. *)
Definition body (g : grid) : list qline :=
  flat_map (fun x => flat_map (fun y => pixel g x y) (seq 0 (g_ny g))) (seq 0 (g_nx g)).

(** * Reading the output back *)

(** [int(s)] of a piece of text; only unsigned decimal numbers are accepted (Python
    also accepts a sign, blanks around it and single underscores, none of which can
    come out of the slices read here) (for [parse_loc], quasi_3D_solver.py:302-306). *)
Definition int_of (s : text) : res nat :=
  match s with
  | [] => Err ValueError
  | _ => match NilEmpty.uint_of_string (string_of_list_ascii s) with
         | Some u => Ok (Nat.of_uint u)
         | None => Err ValueError
         end
  end.
(** [l[i]] of a Python list (for [parse_loc], quasi_3D_solver.py:302-306). *)
Definition item {A} (l : list A) (i : nat) : res A := match nth_error l i with Some x => Ok x | None => Err IndexError end.
(** The location in a table heading, quasi_3D_solver.py:302-306. *)
Definition parse_loc (h : text) : res (nat * nat * nat) :=
  let ix := split_on "_"%char (firstn 9 (skipn 4 h)) in
  let! a := item ix 0 in let! j := int_of a in
  let! b := item ix 1 in let! x := int_of b in
  let! c := item ix 2 in let! y := int_of c in
  Ok (j, x, y).

(** The variables of the reading loop, quasi_3D_solver.py:257-262, 295-323. *)
Record store := mkStore { s_cur : option (nat * nat * nat); s_vall : nat -> nat -> nat -> nat -> R;
                          s_vmet : nat -> nat -> nat -> R; s_v : nat -> R; s_i : nat -> R }.
(** Array updates (for [read_row], quasi_3D_solver.py:311-323). *)
Definition upd1 (f : nat -> R) (i : nat) (v : R) : nat -> R := fun i' => if Nat.eqb i' i then v else f i'.
(** For [read_row], quasi_3D_solver.py:311-323. *)
Definition upd3 (f : nat -> nat -> nat -> R) (x y i : nat) (v : R) : nat -> nat -> nat -> R :=
  fun x' y' i' => if Nat.eqb x' x && Nat.eqb y' y && Nat.eqb i' i then v else f x' y' i'.
(** For [read_row], quasi_3D_solver.py:311-323. *)
Definition upd4 (f : nat -> nat -> nat -> nat -> R) (x y k i : nat) (v : R) : nat -> nat -> nat -> nat -> R :=
  fun x' y' k' i' => if Nat.eqb x' x && Nat.eqb y' y && Nat.eqb k' k && Nat.eqb i' i then v else f x' y' k' i'.

(** The shapes of the arrays: xnodes, ynodes, junctions and steps + 1,
    quasi_3D_solver.py:244-246, 259-262. *)
Record shape := mkShape { d_x : nat; d_y : nat; d_j : nat; d_n : nat }.

Section Reader.
(** [float(s)] of a piece of text. *)
Context (fl : text -> res R).
(** [line[0] in '01234567890.'], quasi_3D_solver.py:308. *)
Definition numeric (c : ascii) : bool :=
  existsb (Ascii.eqb c) (list_ascii_of_string "01234567890.").
(** [line[:5] == 'Index'] for the first word of a line. *)
Definition is_index (w : text) : bool := is_prefix (t "Index") w.

(** A data row, quasi_3D_solver.py:311-323; the index i must be within the arrays. *)
Definition read_row (d : shape) (st : store) (w : text) (rest : list text) : res store :=
  let! i := int_of w in
  let write (metal : bool) :=
    let! b := (let! w2 := item rest 2 in fl w2) in
    match s_cur st with
    | None => Err UnboundLocalError
    | Some (j, x, y) =>
        if Nat.ltb x (d_x d) && Nat.ltb y (d_y d) && Nat.ltb (2 * j + 1) (2 * d_j d) && Nat.ltb i (d_n d) then
          let! a := (let! w1 := item rest 1 in fl w1) in
          let va := upd4 (upd4 (s_vall st) x y (2 * j + 1) i b) x y (2 * j) i a in
          if metal then
            let! m := (let! w3 := item rest 3 in fl w3) in
            Ok (mkStore (s_cur st) va (upd3 (s_vmet st) x y i m) (s_v st) (s_i st))
          else Ok (mkStore (s_cur st) va (s_vmet st) (s_v st) (s_i st))
        else Err IndexError
    end in
  if Nat.eqb (length rest) 3 then write false
  else if Nat.eqb (length rest) 4 then write true
  else
    let! v := (let! w0 := item rest 0 in fl w0) in
    if Nat.ltb i (d_n d) then
      let! c := (let! w1 := item rest 1 in fl w1) in
      Ok (mkStore (s_cur st) (s_vall st) (s_vmet st) (upd1 (s_v st) i v) (upd1 (s_i st) i (- c)))
    else Err IndexError.

(** One pass of the loop over the lines, quasi_3D_solver.py:295-323.  A line is its
    list of words; lines beginning with a blank are skipped by the code like any other
    line that does not begin with a digit and are not represented. *)
Definition read_line (d : shape) (st : store) (l : list text) : res store :=
  match l with
  | [] => Ok st
  | w :: rest =>
      let! st1 := if is_index w && Nat.leb 4 (length l) then
                    let! h := item l 2 in
                    let! c := parse_loc h in
                    Ok (mkStore (Some c) (s_vall st) (s_vmet st) (s_v st) (s_i st))
                  else Ok st in
      match w with
      | c :: _ => if numeric c then read_row d st1 w rest else Ok st1
      | [] => Ok st1
      end
  end.
(** With [read_line], quasi_3D_solver.py:295-323. *)
Fixpoint read_lines (d : shape) (st : store) (ls : list (list text)) : res store :=
  match ls with
  | [] => Ok st
  | l :: ls' => let! st' := read_line d st l in read_lines d st' ls'
  end.
(** The arrays start at zero, quasi_3D_solver.py:259-262. *)
Definition empty_store : store := mkStore None (fun _ _ _ _ => 0) (fun _ _ _ => 0) (fun _ => 0) (fun _ => 0).
(** The whole reading, with the scaling of the current undone, quasi_3D_solver.py:294-326. *)
Definition read_output (d : shape) (gn : R) (ls : list (list text)) : res store :=
  let! st := read_lines d empty_store ls in
  Ok (mkStore (s_cur st) (s_vall st) (s_vmet st) (s_v st) (fun i => s_i st i / gn)).
End Reader.
