(** Model of the radiative coupling of the junctions of a cell, [solve_radiative_coupling]
    in solcore/analytic_solar_cells/IV.py:131-267: the coupling currents, the node equations
    and the loop over the voltages.  scipy's root finder is a parameter. *)
From Coq Require Import Reals List Arith Bool.
From Verif Require Import Common PhysConst NpModel DetBalModel IVModel.
From Coq Require Import List.
Import ListNotations.
Open Scope R_scope.
Open Scope list_scope.

(** The absorption of the light of one junction in another, lines 193-203, for one
    wavelength with reflectance [r] of the front surface (lines 151-175 are the same as in
    detailed_balance.py, [internal_R]; the number of steps is a parameter as there): [Bem]
    and [Bab] are the fractions the emitting and the absorbing junction let through, [Btr]
    that of the junctions between. *)
Definition coupled_A (steps : nat) (r Bem Bab Btr : R) : R :=
  let cos_t := linspace (/ 1000) 1 steps in
  let inner := map (fun i => nth i cos_t 0) (seq 1 (steps - 2)) in
  let R1 := internal_R r (nth (steps - 1) cos_t 0) in
  2 * PI * fold_left (fun acc t => acc + (1 + internal_R r t * rpow Bem (1 / t)) * (1 - rpow Bem (1 / t)) * (1 - rpow Bab (1 / t)) * rpow Btr (1 / t) * t) inner
                     (1 / 2 * (1 + R1 * Bem) * (1 - Bem) * (1 - Bab) * Btr) / (INR steps + 1).
(** The row of [coupling_currents] of one emitting junction, lines 182-212: index [n] and
    absorptance of the emitter, absorptances of the junctions below in order, starting with
    what passes the ones between, [Btr].  The integral of lines 204-208 is that of the
    emission of a junction. *)
Fixpoint couplings (steps : nat) (n T : R) (wl : list R) (refl aem : R -> R) (Btr : R -> R) (below : list (R -> R)) : list R :=
  match below with
  | [] => []
  | a :: below' =>
      emission n (map (fun l => coupled_A steps (refl l) (1 - aem l) (1 - a l) (Btr l)) wl) wl T
      :: couplings steps n T wl refl aem (fun l => Btr l * (1 - a l)) below'
  end.
(** Line 189. *)
Definition couplings_of (steps : nat) (n T : R) (wl : list R) (refl aem : R -> R) (below : list (R -> R)) : list R :=
  couplings steps n T wl refl aem (fun _ => 1) below.

(** Sum over 0 .. m-1. *)
Fixpoint sigma (g : nat -> R) (m : nat) : R := match m with O => 0 | S m' => sigma g m' + g m' end.

Section Nodes.
(** The number of junctions, their characteristics, the coupling currents (C i j is
    [coupling_currents[i, j - 1]]), the temperature and the series resistance. *)
Context (num : nat) (iv : nat -> R -> R) (C : nat -> nat -> R) (T R_series : R).
(** Line 238: the light junction j gets from junction i. *)
Definition coupled (v : nat -> R) (i j : nat) : R := C i j * exp (q * v i / (kb * T)).
(** The current through junction j, lines 228 and 234-238. *)
Definition net (v : nat -> R) (j : nat) : R := iv j (v j) - sigma (fun i => coupled v i j) j.
(** The node equations, lines 222-244. *)
Definition F (Vext : R) (v : nat -> R) (j : nat) : R :=
  match j with
  | O => (Vext - sigma v num) / series_R R_series - iv 0%nat (v 0%nat)
  | S j' => net v j' - net v j
  end.
(** The loop of lines 248-264: [root f guess] is what scipy's root returns; each solution is
    the guess of the next one. *)
Context (root : ((nat -> R) -> nat -> R) -> (nat -> R) -> nat -> R).
(** By [F], IV.py, lines 222-244. *)
Fixpoint coupling_loop (guess : nat -> R) (Vs : list R) : list (R * (nat -> R)) :=
  match Vs with
  | [] => []
  | V :: Vs' => let x := root (F V) guess in (iv 0%nat (x 0%nat), x) :: coupling_loop x Vs'
  end.
(** Lines 267-275: the coupled currents that are returned, for each junction but the first. *)
Definition coupled_J (sols : list (R * (nat -> R))) : list (list (list R)) :=
  map (fun j => map (fun i => map (fun s => coupled (snd s) i j) sols) (seq 0 j)) (seq 1 (num - 1)).
End Nodes.
