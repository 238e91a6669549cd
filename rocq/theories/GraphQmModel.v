(** Model of [solcore/quantum_mechanics/graphics.py]: the data drawn for quantum wells.  In the
    comments G is that file.  The drawing itself is left out. *)
From Coq Require Import Reals ZArith String List Bool Arith.
From Verif Require Import Common NumModel InterpModel NpModel PhysConst SchrodModel TmmModel PickModel.
From Coq Require Import List.
From Verif Require Import SchrodModel.
Import ListNotations.
Open Scope R_scope.
Open Scope list_scope.

(** * Local density of states *)
(** [L], G:17-18 *)
Definition lorentz (x centre hwhm : R) : R :=
  1 / PI * (5 / 10 * hwhm) / ((x - centre) ^ 2 + (5 / 10 * hwhm) ^ 2).
(** calculate_in_plane_masses, G:331-338, for arrays of the length of [x]. *)
Definition in_plane_masses (x : list R) (psi : list (list R)) (m : list R) : list R :=
  map (fun ps => np_trapz (map (fun p => fst p ^ 2 * snd p) (combine ps m)) x) psi.
(** The loops G:306-308, 320-322 and 324-326: the density at an energy and the k-th position.
    Simplified: element by element instead of sums of arrays; the masses, which do not change,
    are calculated once. *)
Definition band_density (x E : list R) (psi : list (list R)) (m : list R) (broad : R) : res (R -> nat -> R) :=
  if Nat.ltb (length psi) (length E) then Err IndexError
  else Ok (fun e k =>
    let mp := in_plane_masses x psi m in
    fold_left (fun acc i => acc + at_ mp i / PI / hbar ^ 2 * (lorentz e (at_ E i) (broad * q) * at_ (nth i psi []) k ^ 2))
      (seq 0 (length E)) 0).
(** The array of the densities at all energies and positions, G:304 and 318. *)
Definition tabulate (energy x : list R) (f : R -> nat -> R) : list (list R) :=
  map (fun e => map (f e) (seq 0 (length x))) energy.
(** LDOS1D_e, G:299-310 *)
Definition LDOS1D_e (x E : list R) (psi : list (list R)) (m : list R) (step margin broad : R) : res (list R * list (list R)) :=
  match E with
  | [] => Err ValueError
  | _ =>
      let! energy := arange (list_min E - margin * q) (list_max E + margin * q) (step * q) in
      let! f := band_density x E psi m broad in
      Ok (energy, tabulate energy x f)
  end.
(** LDOS1D_h, G:313-328 *)
Definition LDOS1D_h (x Ehh Elh : list R) (psi_hh psi_lh : list (list R)) (mhh mlh : list R) (step margin broad : R)
  : res (list R * list (list R)) :=
  match Ehh, Elh with
  | _ :: _, _ :: _ =>
      let! energy := arange (Rmin (list_min Ehh) (list_min Elh) - margin * q) (Rmax (list_max Ehh) (list_max Elh) + margin * q) (step * q) in
      let! f := band_density x Ehh psi_hh mhh broad in
      let! g := band_density x Elh psi_lh mlh broad in
      Ok (energy, tabulate energy x (fun e k => f e k + g e k))
  | _, _ => Err ValueError
  end.

(** * Wavefunctions *)
(** normalise_psi, G:50-51.  Simplified: for a constant function, where numpy goes on with inf or
    nan, RuntimeError. *)
Definition normalise_psi (p : list R) : res (list R) :=
  match p with
  | [] => Err ValueError
  | _ => let d := list_max p - list_min p in
         if Req_EM_T d 0 then Err RuntimeError else Ok (map (fun v => v / d * q) p)
  end.
(** The mask G:59-61 and 346-348: the points shown. *)
Definition visible (trim : R) (l : list (R * R)) : list (R * R) :=
  filter (fun p => if Rlt_dec (trim ^ 2) (snd p ^ 2 / q ^ 2) then true else false) l.
(** One level, G:58-65 and 345-351. *)
Definition wave (x : list R) (trim scale : R) (suppress_invert square : bool) (e : R) (psi : list R) : res (list R * list R) :=
  let! n := normalise_psi (if square then map (fun v => v ^ 2) psi else psi) in
  let l := visible trim (combine x n) in
  match l with
  | [] => Err IndexError
  | p :: _ =>
      let invert := if Rlt_dec (snd p) 0 then (if suppress_invert then 1 else if square then 1 else -1) else 1 in
      Ok (map fst l, map (fun p => e + snd p * scale * invert) l)
  end.
(** prepare_wavefunction_data and prepare_wavefunction_data_only, G:54-66 and 341-353. *)
Definition waves (x E : list R) (Psi : list (list R)) (trim scale : R) (suppress_invert square : bool) : res (list (list R * list R)) :=
  mapRR (fun p => wave x trim scale suppress_invert square (fst p) (snd p)) (combine E Psi).

(** * Structures *)
(** A layer: width and band edges, G:30-37. *)
Record edge_layer := EdgeLayer { el_width : R; el_Ec : R; el_Ev : R }.
(** The loop of structure_graph, G:26-37, from the depth [x]: depths, conduction and valence band. *)
Fixpoint staircase (x : R) (ls : list edge_layer) : list R * list R * list R :=
  match ls with
  | [] => ([], [], [])
  | l :: r =>
      let '(xs, cs, vs) := staircase (x + el_width l) r in
      (x :: (x + el_width l) :: xs, el_Ec l :: el_Ec l :: cs, el_Ev l :: el_Ev l :: vs)
  end.

(** * Options *)
Section Options.
Context {V : Type}.
(** d.update(kwargs), G:24 and others. *)
Definition update (d kw : list (string * V)) : list (string * V) := fold_left (fun d p => store d (fst p) (snd p)) kw d.
(** The options of structure_graph, wavefunctions_graph and potentials_graph, G:22-24, 81-83,
    101-103, with the module's defaults afterwards. *)
Definition graph_options (defaults kw : list (string * V)) : list (string * V) * list (string * V) :=
  (update defaults kw, defaults).
(** The options of split_schrodinger_graph, G:139-142, with the module's defaults afterwards;
    [no] is False. *)
Definition split_options (no : V) (defaults kw : list (string * V)) : list (string * V) * list (string * V) :=
  (store defaults "square"%string no, update defaults kw).
End Options.
