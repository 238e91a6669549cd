(** Model of [solve_quasi_3D] (spice/quasi_3D_solver.py:6-78) and of the scaling and the
    header in [solve_circuit_quasi3D] (lines 164-182, 226-242): the parameters taken from the
    junctions, the defaults and limits of the resistances, and the conversion to the
    per-pixel values written in the netlist.  The netlist itself is in SpiceModel. *)
From Coq Require Import Reals String Ascii List Bool ZArith Arith.
From Verif Require Import Common NpModel MatStrModel SpiceModel.
From Coq Require Import List.
Import ListNotations.
Open Scope R_scope.
Open Scope list_scope.

(** The attributes read from a junction after the 1D solution, lines 50-64. *)
Record qjunction := mkQJ {
  qj_n1 : option R; qj_n2 : option R; qj_rsh : option R; qj_top : option R; qj_bot : option R;
  qj_jsc : option R; qj_j01 : option R; qj_j02 : option R; qj_eg : option R }.
(** [hasattr] with a default, lines 52-56. *)
Definition attr_or (a : option R) (f : R -> R) (d : R) : R := match a with Some x => f x | None => d end.
(** With [attr_or], quasi_3D_solver.py, lines 52-56. *)
Definition tiny : R := / 10 ^ 16.
(** With [attr_or], quasi_3D_solver.py, lines 52-56. *)
Definition q_n1 (j : qjunction) : R := attr_or (qj_n1 j) (fun x => x) 1.
(** With [attr_or], quasi_3D_solver.py, lines 52-56. *)
Definition q_n2 (j : qjunction) : R := attr_or (qj_n2 j) (fun x => x) 2.
(** With [attr_or], quasi_3D_solver.py, lines 52-56. *)
Definition q_shunt (j : qjunction) : R := attr_or (qj_rsh j) (fun x => Rmin x (10 ^ 16)) (10 ^ 16).
(** With [attr_or], quasi_3D_solver.py, lines 52-56. *)
Definition q_sheet_top (j : qjunction) : R := attr_or (qj_top j) (fun x => Rmax x tiny) tiny.
(** With [attr_or], quasi_3D_solver.py, lines 52-56. *)
Definition q_sheet_bot (j : qjunction) : R := attr_or (qj_bot j) (fun x => Rmax x tiny) tiny.
(** The parameters without default, lines 58-64: a missing one raises AttributeError. *)
Record qdiode := mkQD { qd_isc : R; qd_i01 : R; qd_i02 : R; qd_eg : R }.
(** With [qdiode], quasi_3D_solver.py, lines 58-64. *)
Definition diode_of (j : qjunction) : res qdiode :=
  match qj_jsc j, qj_j01 j, qj_j02 j, qj_eg j with
  | Some a, Some b, Some c, Some d => Ok (mkQD a b c d)
  | _, _, _, _ => Err AttributeError
  end.
(** With [qdiode], quasi_3D_solver.py, lines 58-64. *)
Fixpoint diodes_of (js : list qjunction) : res (list qdiode) :=
  match js with
  | [] => Ok []
  | j :: js' => let! d := diode_of j in let! ds := diodes_of js' in Ok (d :: ds)
  end.
(** [a[i] = v] of an array (for [put_tunnels], quasi_3D_solver.py, lines 66-69). *)
Fixpoint put (i : nat) (v : R) (l : list R) : res (list R) :=
  match l, i with
  | [], _ => Err IndexError
  | _ :: l', O => Ok (v :: l')
  | a :: l', S i' => let! r := put i' v l' in Ok (a :: r)
  end.
(** The series resistances of the tunnel junctions, lines 66-69: the k-th
    tunnel junction of the cell sets entry k. *)
Fixpoint put_tunnels (ts : list (option R)) (i : nat) (l : list R) : res (list R) :=
  match ts with
  | [] => Ok l
  | r :: ts' => let! l' := put i (attr_or r (fun x => Rmax x tiny) tiny) l in put_tunnels ts' (S i) l'
  end.
(** Lines 48, 66-71: the array of series resistances; the last entry is that of the back. *)
Definition series_of (n : nat) (ts : list (option R)) (R_back : R) : res (list R) :=
  let! l := put_tunnels ts 0 (repeat tiny n) in
  match n with
  | O => Err IndexError
  | S m => put m (Rmax R_back tiny) l
  end.

(** The elements of the cell that matter, in order: junctions and tunnel junctions (with
    their attribute R_series); solar_cell.py:57-71 sorts their positions into
    junction_indices and tunnel_indices.  Plain layers play no part. *)
Inductive item := Junc (j : qjunction) | Tun (r : option R).
(** With [item], solar_cell.py:57-71. *)
Definition junctions (its : list item) : list qjunction := flat_map (fun i => match i with Junc j => [j] | Tun _ => [] end) its.
(** With [item], solar_cell.py:57-71. *)
Definition tunnels (its : list item) : list (option R) := flat_map (fun i => match i with Junc _ => [] | Tun r => [r] end) its.

(** The arguments of [solve_quasi_3D], lines 6-7, that reach the netlist. *)
Record qcell := mkQC {
  qc_items : list item;
  qc_back : R; qc_contact : R; qc_line : R; qc_h : R; qc_lx : R; qc_ly : R;
  qc_nx : nat; qc_ny : nat; qc_inj : nat -> nat -> R; qc_con : nat -> nat -> R }.

(** The scaling factor, line 226; [I01[0]] is positive for a physical cell, numpy gives
    inf or nan otherwise and the model's value is then meaningless. *)
Definition scaling (ds : list qdiode) : R := match ds with d :: _ => sqrt (1 / qd_i01 d) | [] => 0 end.
(** Lines 226-242 with the scaling factor as a parameter: the values of one pixel. *)
Definition scaled (gn : R) (c : qcell) (ds : list qdiode) (rser : list R) : grid :=
  let area := qc_lx c * qc_ly c in
  let js := junctions (qc_items c) in
  {| g_nx := qc_nx c; g_ny := qc_ny c; g_s := qc_ly c / qc_lx c;
     g_isc := map (fun d => qd_isc d * area * gn) ds;
     g_top := map (fun j => q_sheet_top j / gn) js;
     g_bot := map (fun j => q_sheet_bot j / gn) js;
     g_rsh := map (fun j => q_shunt j / area / gn) js;
     g_rser := map (fun r => r / area / gn) rser;
     g_metal := qc_line c / qc_h c / gn;
     g_contact := qc_contact c / area / gn;
     g_inj := qc_inj c; g_con := qc_con c |}.
(** The diode models of the header, lines 177-182 with the saturation currents of lines
    231-232: name, (is, n, eg). *)
Definition models (gn : R) (c : qcell) (ds : list qdiode) : list (text * (R * R * R)) :=
  let area := qc_lx c * qc_ly c in
  flat_map (fun p : nat * (qjunction * qdiode) =>
              let '(i, (j, d)) := p in
              [ (t "diode1_" ++ str_nat i, (qd_i01 d * area * gn, q_n1 j, qd_eg d));
                (t "diode2_" ++ str_nat i, (qd_i02 d * area * gn, q_n2 j, qd_eg d)) ])
           (combine (seq 0 (length ds)) (combine (junctions (qc_items c)) ds)).
(** The netlist of [solve_quasi_3D]: the models and the body. *)
Definition quasi3d (c : qcell) : res (list (text * (R * R * R)) * list qline) :=
  let! ds := diodes_of (junctions (qc_items c)) in
  let! rser := series_of (length (junctions (qc_items c))) (tunnels (qc_items c)) (qc_back c) in
  let gn := scaling ds in
  Ok (models gn c ds, body (scaled gn c ds rser)).
