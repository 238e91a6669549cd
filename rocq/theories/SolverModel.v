(** Model of [solcore/solar_cell_solver.py]: preparation of a cell and dispatch
    of the tasks.  The physics behind each solver is not part of this file: a
    solver call is an event in a trace. *)
From Coq Require Import Reals String List Bool Arith.
From Verif Require Import Common NumModel.
Import ListNotations.
Open Scope R_scope.
Open Scope string_scope.
Open Scope list_scope.

(** Exact Python type of an element, as tested at solar_cell_solver.py:310, 314, 322. *)
Inductive otype := OLayer | OTunnel | OJunction | OOther.

(** An element of the cell, by the attributes that this module reads or writes:
    [width], [kind], the widths of its own layers, [offset], and which optics
    run (if any) produced its [absorbed] attribute (line 134). *)
Record obj := mkObj {
  o_type : otype;
  o_width : option R;
  o_kind : option string;
  o_layers : list R;
  o_offset : option R;
  o_absorbed : option nat
}.
(** With [obj], solar_cell_solver.py, line 134. *)
Definition set_width (o : obj) (w : R) : obj :=
  mkObj (o_type o) (Some w) (o_kind o) (o_layers o) (o_offset o) (o_absorbed o).
(** With [obj], solar_cell_solver.py, line 134. *)
Definition set_offset (o : obj) (x : R) : obj :=
  mkObj (o_type o) (o_width o) (o_kind o) (o_layers o) (Some x) (o_absorbed o).
(** With [obj], solar_cell_solver.py, line 134. *)
Definition set_absorbed (o : obj) (n : nat) : obj :=
  mkObj (o_type o) (o_width o) (o_kind o) (o_layers o) (o_offset o) (Some n).

(** Python objects live in a heap; a cell is a list of references, and the same
    object can occur several times (e.g. [append(x, repeats=2)],
    solar_cell.py:73-84). *)
Definition heap := nat -> obj.
(** With [heap], solar_cell.py:73-84. *)
Definition upd (h : heap) (i : nat) (o : obj) : heap := fun j => if Nat.eqb j i then o else h j.

(** [layer_widths] and the updated element for one turn of the loop
    solar_cell_solver.py:309-344. *)
Definition sum_widths (l : list R) : R := fold_left Rplus l 0.
(** With [sum_widths], solar_cell_solver.py:309-344. *)
Definition kind_is (o : obj) (k : string) : bool :=
  match o_kind o with Some k' => String.eqb k' k | None => false end.
(** With [sum_widths], solar_cell_solver.py:309-344. *)
Definition visit (o : obj) : res (obj * list R) :=
  match o_type o with
  | OLayer => match o_width o with Some w => Ok (o, [w]) | None => Err AttributeError end
  | OTunnel => Ok (set_width o (sum_widths (o_layers o)), o_layers o)
  | OJunction =>
      match o_kind o with
      | None => Err AttributeError
      | Some k =>
          if String.eqb k "2D" || String.eqb k "DB" then
            Ok (match o_width o with Some _ => o | None => set_width o (1 / 1000000) end,
                [1 / 1000000])
          else Ok (set_width o (sum_widths (o_layers o)), o_layers o)
      end
  | OOther => Ok (o, [])
  end.

(** The loop solar_cell_solver.py:305-347. *)
Fixpoint prepare_loop (h : heap) (ids : list nat) (offset : R) (lw : list R)
  : res (heap * R * list R) :=
  match ids with
  | [] => Ok (h, offset, lw)
  | i :: ids' =>
      let! v := visit (h i) in
      let o := set_offset (fst v) offset in
      match o_width o with
      | None => Err AttributeError
      | Some w => prepare_loop (upd h i o) ids' (offset + w) (lw ++ snd v)
      end
  end.

(** The 'position' option: None, a number, a list or array, or anything else
    (solar_cell_solver.py:380, 395, 398). *)
Inductive position := PNone | PNumber (r : R) | PList (l : list R) | POther.

(** Per-layer meshes, solar_cell_solver.py:384-393 and 415-425: layer j starts at
    the j-th prefix sum. *)
Fixpoint layer_meshes (start : R) (lw steps : list R) : res (list (list R)) :=
  match lw, steps with
  | w :: lw', s :: steps' =>
      let! m := arange start (start + w) s in
      let! ms := layer_meshes (start + w) lw' steps' in Ok (m :: ms)
  | [], _ => Ok []
  | _ :: _, [] => Err IndexError
  end.
(** Per-element meshes, solar_cell_solver.py:403-412. *)
Fixpoint element_meshes (h : heap) (ids : list nat) (steps : list R) : res (list (list R)) :=
  match ids, steps with
  | i :: ids', s :: steps' =>
      match o_offset (h i), o_width (h i) with
      | Some x, Some w =>
          let! m := arange x (x + w) s in
          let! ms := element_meshes h ids' steps' in Ok (m :: ms)
      | _, _ => Err AttributeError
      end
  | [], _ => Ok []
  | _ :: _, [] => Err IndexError
  end.

(** [process_position], solar_cell_solver.py:366-425. *)
Definition process_position (h : heap) (ids : list nat) (cell_width : R) (lw : list R) (p : position)
  : res position :=
  match p with
  | PNone =>
      let! ms := layer_meshes 0 lw (map (fun w => Rmax (1 / 10000000000) (w / 5000)) lw) in
      let! l := hstack ms in Ok (PList l)
  | PNumber s => let! l := arange 0 cell_width s in Ok (PList l)
  | PList l =>
      let! l1 := match l with
                 | [s] => arange 0 cell_width s
                 | _ => Ok l
                 end in
      if Nat.eqb (length l1) (length ids) then
        let! ms := element_meshes h ids l1 in let! l2 := hstack ms in Ok (PList l2)
      else if Nat.eqb (length l1) (length lw) then
        let! ms := layer_meshes 0 lw l1 in let! l2 := hstack ms in Ok (PList l2)
      else Ok (PList l1)
  | POther => Ok POther
  end.

(** The options used here; [opt_tag] stands for everything else (wavelengths,
    light source, ...), so that a result can be traced to its options (for [prepare], solar_cell_solver.py:296-364). *)
Record options := mkOptions {
  opt_position : position;
  opt_voltages : option (list R);
  opt_internal : option (list R);
  opt_T : R;
  opt_method : string;
  opt_recalculate : bool;
  opt_tag : nat
}.
(** For [prepare], solar_cell_solver.py:296-364. *)
Definition set_position (o : options) (p : position) : options :=
  mkOptions p (opt_voltages o) (opt_internal o) (opt_T o) (opt_method o) (opt_recalculate o) (opt_tag o).
(** options.T = solar_cell.T, solar_cell_solver.py:104. *)
Definition set_T (o : options) (x : R) : options :=
  mkOptions (opt_position o) (opt_voltages o) (opt_internal o) x (opt_method o) (opt_recalculate o) (opt_tag o).

(** A solar cell: the elements, the indices of junctions and tunnel junctions
    (kept by SolarCell, see StructModel), its width and temperature (for [prepare], solar_cell_solver.py:296-364). *)
Record scell := mkCell {
  sc_heap : heap;
  sc_ids : list nat;
  sc_junctions : list nat;
  sc_tunnels : list nat;
  sc_width : option R;
  sc_T : R
}.
(** For [prepare], solar_cell_solver.py:296-364. *)
Definition set_cell (c : scell) (h : heap) (w : option R) : scell :=
  mkCell h (sc_ids c) (sc_junctions c) (sc_tunnels c) w (sc_T c).

(** [prepare_solar_cell], solar_cell_solver.py:296-364.  The prepared cell is
    returned even when the checks at 353-364 fail; when the loop fails the partly
    updated cell is not modelled (the error is). *)
Definition prepare (c : scell) (o : options) : res (scell * options) :=
  match prepare_loop (sc_heap c) (sc_ids c) 0 [] with
  | Err e => Err e
  | Ok (h, w, lw) =>
      let! p := process_position h (sc_ids c) w lw (opt_position o) in
      if match opt_voltages o with Some v => any_decrease v | None => false end then Err ValueError
      else if match opt_internal o with Some v => any_decrease v | None => false end then Err ValueError
      else Ok (set_cell c h (Some w), set_position o p)
  end.

(** Events: which solver function was called, on which element, with which
    options. *)
Inductive event :=
| EOptics : string -> nat -> event              (* method, options tag; line 145 *)
| EIV : string -> nat -> event                  (* junction kind, position; 169-178 *)
| ETunnelIV : string -> nat -> event            (* tunnel kind, position; 189-198 *)
| EMultijunction : event                        (* line 210 *)
| EQE : string -> nat -> event                  (* 226-238 *)
| EEquilibrium : string -> nat -> event         (* 267 *)
| EShortCircuit : string -> nat -> event        (* 293 *)
| EWarn : nat -> event                          (* 261-264, 287-290 *)
| EAction : string -> event.                    (* a task registered by the user, 113 *)

(** The registries that this module imports (registries.py:87, 125, 166, 208,
    250), as name tests. *)
Record registries := mkRegistries {
  r_actions : string -> bool;
  r_optics : string -> bool;
  r_iv : string -> bool;
  r_equilibrium : string -> bool;
  r_short_circuit : string -> bool
}.

(** Outcome of a task: the cell, the trace, and the exception if any (for [solve_optics], solar_cell_solver.py:116-152). *)
Record outcome := mkOutcome { out_cell : scell; out_trace : list event; out_exn : option exn }.

(** An optics method gives every element of the cell a new [absorbed] attribute
    (e.g. optics/beer_lambert.py:154-169, optics/tmm.py:150-179). *)
Definition mark_absorbed (c : scell) (tag : nat) : scell :=
  set_cell c (fold_left (fun h i => upd h i (set_absorbed (h i) tag)) (sc_ids c) (sc_heap c)) (sc_width c).

(** [solve_optics], solar_cell_solver.py:116-152; [solar_cell[0]] of an empty
    cell raises IndexError. *)
Definition solve_optics (R : registries) (c : scell) (o : options) : outcome :=
  match sc_ids c with
  | [] => mkOutcome c [] (Some IndexError)
  | i :: _ =>
      let calculated := match o_absorbed (sc_heap c i) with Some _ => true | None => false end in
      if negb calculated || opt_recalculate o then
        if r_optics R (opt_method o)
        then mkOutcome (mark_absorbed c (opt_tag o)) [EOptics (opt_method o) (opt_tag o)] None
        else mkOutcome c [] (Some ValueError)
      else mkOutcome c [] None
  end.

(** Object at position j of the cell (for [tunnel_one], solar_cell_solver.py:189-207). *)
Definition elem (c : scell) (j : nat) : option obj :=
  match nth_error (sc_ids c) j with Some i => Some (sc_heap c i) | None => None end.

(** Loop over indices: the handler gives the events of one element or an error;
    an exception stops the loop (for [solve_iv], solar_cell_solver.py:155-210). *)
Fixpoint over (js : list nat) (f : nat -> list event * option exn) : list event * option exn :=
  match js with
  | [] => ([], None)
  | j :: js' =>
      match f j with
      | (ev, Some e) => (ev, Some e)
      | (ev, None) => let (ev', e) := over js' f in (ev ++ ev', e)
      end
  end.

(** For [tunnel_one], solar_cell_solver.py:189-207. *)
Definition mem (k : string) (l : list string) : bool := existsb (String.eqb k) l.

(** The branches solar_cell_solver.py:169-184. *)
Definition iv_kinds := ["PDD"; "sesame_PDD"; "DA"; "2D"; "DB"].
(** With [iv_kinds], solar_cell_solver.py:169-184. *)
Definition iv_one (c : scell) (j : nat) : list event * option exn :=
  match elem c j with
  | None => ([], Some IndexError)
  | Some o =>
      match o_kind o with
      | None => ([], Some AttributeError)
      | Some k => if mem k iv_kinds then ([EIV k j], None) else ([], Some ValueError)
      end
  end.
(** The branches solar_cell_solver.py:189-207; "analytic" only prints. *)
Definition tunnel_one (c : scell) (j : nat) : list event * option exn :=
  match elem c j with
  | None => ([], Some IndexError)
  | Some o =>
      match o_kind o with
      | None => ([], Some AttributeError)
      | Some k =>
          if mem k ["resistive"; "parametric"; "external"] then ([ETunnelIV k j], None)
          else if String.eqb k "analytic" then ([], None)
          else ([], Some ValueError)
      end
  end.
(** [solve_iv], solar_cell_solver.py:155-210. *)
Definition solve_iv (R : registries) (c : scell) (o : options) : outcome :=
  let r := solve_optics R c o in
  match out_exn r with
  | Some _ => r
  | None =>
      let c1 := out_cell r in
      match over (sc_junctions c1) (iv_one c1) with
      | (ev, Some e) => mkOutcome c1 (out_trace r ++ ev) (Some e)
      | (ev, None) =>
          match over (sc_tunnels c1) (tunnel_one c1) with
          | (ev', Some e) => mkOutcome c1 (out_trace r ++ ev ++ ev') (Some e)
          | (ev', None) => mkOutcome c1 (out_trace r ++ ev ++ ev' ++ [EMultijunction]) None
          end
      end
  end.

(** [solve_qe], solar_cell_solver.py:213-244. *)
Definition qe_one (c : scell) (j : nat) : list event * option exn :=
  match elem c j with
  | None => ([], Some IndexError)
  | Some o =>
      match o_kind o with
      | None => ([], Some AttributeError)
      | Some k => if mem k iv_kinds then ([EQE k j], None) else ([], Some ValueError)
      end
  end.
(** With [qe_one], solar_cell_solver.py:213-244. *)
Definition solve_qe (R : registries) (c : scell) (o : options) : outcome :=
  let r := solve_optics R c o in
  match out_exn r with
  | Some _ => r
  | None =>
      let (ev, e) := over (sc_junctions (out_cell r)) (qe_one (out_cell r)) in
      mkOutcome (out_cell r) (out_trace r ++ ev) e
  end.

(** [solve_equilibrium], solar_cell_solver.py:247-267, and the loop of
    [solve_short_circuit], 283-293: a missing solver is a warning. *)
Definition reg_one (reg : string -> bool) (mk : string -> nat -> event) (c : scell) (j : nat)
  : list event * option exn :=
  match elem c j with
  | None => ([], Some IndexError)
  | Some o =>
      match o_kind o with
      | None => ([], Some AttributeError)
      | Some k => if reg k then ([mk k j], None) else ([EWarn j], None)
      end
  end.
(** With [reg_one], solar_cell_solver.py:247-267. *)
Definition solve_equilibrium (R : registries) (c : scell) (o : options) : outcome :=
  let (ev, e) := over (sc_junctions c) (reg_one (r_equilibrium R) EEquilibrium c) in
  mkOutcome c ev e.
(** With [reg_one], solar_cell_solver.py:247-267. *)
Definition solve_short_circuit (R : registries) (c : scell) (o : options) : outcome :=
  let r := solve_optics R c o in
  match out_exn r with
  | Some _ => r
  | None =>
      let (ev, e) := over (sc_junctions (out_cell r)) (reg_one (r_short_circuit R) EShortCircuit (out_cell r)) in
      mkOutcome (out_cell r) (out_trace r ++ ev) e
  end.

(** [solar_cell_solver], solar_cell_solver.py:79-113; the merged options are
    given (StateModel has the merge).  A failing preparation leaves the cell as it
    was in the model (see [prepare]).  The five built-in tasks can be replaced in
    the registry only with overwrite=True; then they are user tasks, which is not
    modelled. *)
Definition builtin := ["optics"; "iv"; "qe"; "equilibrium"; "short_circuit"].
(** With [builtin], solar_cell_solver.py:79-113. *)
Definition solver (R : registries) (c : scell) (task : string) (o : options) : outcome :=
  match prepare c o with
  | Err e => mkOutcome c [] (Some e)
  | Ok (c1, o1) =>
      let o2 := set_T o1 (sc_T c1) in
      if r_actions R task then
        if String.eqb task "optics" then solve_optics R c1 o2
        else if String.eqb task "iv" then solve_iv R c1 o2
        else if String.eqb task "qe" then solve_qe R c1 o2
        else if String.eqb task "equilibrium" then solve_equilibrium R c1 o2
        else if String.eqb task "short_circuit" then solve_short_circuit R c1 o2
        else mkOutcome c1 [EAction task] None
      else mkOutcome c1 [] (Some ValueError)
  end.
