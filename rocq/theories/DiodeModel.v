(** Model of solcore/analytic_solar_cells/diode_equation.py: the two-diode solver
    and the saturation-current helpers.  Numbers are reals. *)
From Coq Require Import Reals List Bool.
From Verif Require Import Common PhysConst.
Import ListNotations.
Open Scope R_scope.
Open Scope list_scope.

(** The attributes of a junction that [iv_2diode] reads; None is a missing
    attribute.  [d_eqe] stands for the attribute eqe by way of the photocurrent
    q*trapz(eqe*ph) it gives under each light source (diode_equation.py:70-73);
    [d_db] stands for what [iv_detailed_balance] needs: the j01 it stores as a
    function of temperature and the eqe it stores, None if an argument is missing. *)
Record diode := {
  d_Rsh : option R; d_n1 : option R; d_n2 : option R; d_j01 : option R; d_j02 : option R;
  d_Tref : option R; d_Eg : option R; d_jsc : option R; d_eqe : option (nat -> R);
  d_reff : option R; d_jref : option R; d_db : option ((R -> R) * (nat -> R))
}.

(** The options used, diode_equation.py:18-21. *)
Record d_options := { o_T : R; o_light : bool; o_source : nat; o_volt : list R }.

(** For [saturation], diode_equation.py, lines 28-63. *)
Definition or_default {A} (o : option A) (d : A) : A := match o with Some x => x | None => d end.
(** For [saturation], diode_equation.py, lines 28-63. *)
Definition attr {A} (o : option A) : res A := match o with Some x => Ok x | None => Err AttributeError end.

(** The current of two diodes and a shunt, diode_equation.py:79-81 (the function
    [iv]), before the cap. *)
Definition two_diode (j01 n1 j02 n2 Rsh jsc T v : R) : R :=
  j01 * (exp (q * v / (n1 * kb * T)) - 1) + j02 * (exp (q * v / (n2 * kb * T)) - 1) + v / Rsh - jsc.
(** With [two_diode], diode_equation.py:79-81. *)
Definition cap : R := 10 ^ 8.

(** Saturation currents for another temperature, diode_equation.py:62-63. *)
Definition scale_j01 (Eg n1 T Tref j01 : R) : R :=
  j01 * (T / Tref) ^ 3 * exp (- Eg / (n1 * (kb / q)) * (1 / T - 1 / Tref)).
(** With [scale_j01], diode_equation.py:62-63. *)
Definition scale_j02 (Eg n2 T Tref j02 : R) : R :=
  j02 * Rpower (T / Tref) (5 / 3) * exp (- Eg / (n2 * (kb / q)) * (1 / T - 1 / Tref)).

(** The shunt resistance and the ideality factors, diode_equation.py:24-26. *)
Definition shunt (d : diode) : R := match d_Rsh d with Some r => Rmin r (10 ^ 14) | None => 10 ^ 14 end.

(** The saturation currents used by the solver and the junction after lines 28-63:
    the reff/jref path (31-46) calls the detailed-balance solver and stores j01, eqe
    and j02; the other path (49-63) stores nothing. *)
Definition saturation (d : diode) (T : R) : res (diode * R * R) :=
  let n1 := or_default (d_n1 d) 1 in
  let n2 := or_default (d_n2 d) 2 in
  match d_reff d, d_jref d with
  | Some reff0, Some jref =>
      match d_db d with
      | None => Err AttributeError
      | Some (j01T, eqe) =>
          let j01 := j01T T in
          let reff := Rmax reff0 (/ 10 ^ 10) in
          let Vref := n1 * kb * T / q * ln (reff * jref / j01 + 1) in
          let j02 := ((1 - reff) * jref - Vref / shunt d) / (exp (q * Vref / (n2 * kb * T)) - 1) in
          Ok ({| d_Rsh := d_Rsh d; d_n1 := d_n1 d; d_n2 := d_n2 d; d_j01 := Some j01; d_j02 := Some j02;
                 d_Tref := d_Tref d; d_Eg := d_Eg d; d_jsc := d_jsc d;
                 d_eqe := match d_eqe d with Some e => Some e | None => Some eqe end;
                 d_reff := d_reff d; d_jref := d_jref d; d_db := d_db d |}, j01, j02)
      end
  | _, _ =>
      let! j01 := attr (d_j01 d) in
      let j02 := or_default (d_j02 d) 0 in
      match d_Tref d with
      | Some Tref =>
          if Req_EM_T T Tref then Ok (d, j01, j02)
          else match d_Eg d with
               | None => Err AssertionError
               | Some Eg => Ok (d, scale_j01 Eg n1 T Tref j01, scale_j02 Eg n2 T Tref j02)
               end
      | None => Ok (d, j01, j02)
      end
  end.

(** The photocurrent, diode_equation.py:65-75. *)
Definition photocurrent (d : diode) (o : d_options) : R :=
  if o_light o then
    match d_jsc d with
    | Some j => j
    | None => match d_eqe d with Some e => e (o_source o) | None => 0 end
    end
  else 0.

(** For [iv_2diode], diode_equation.py:10-84. *)
Definition set_jsc (d : diode) (j : R) : diode :=
  {| d_Rsh := d_Rsh d; d_n1 := d_n1 d; d_n2 := d_n2 d; d_j01 := d_j01 d; d_j02 := d_j02 d;
     d_Tref := d_Tref d; d_Eg := d_Eg d; d_jsc := Some j; d_eqe := d_eqe d;
     d_reff := d_reff d; d_jref := d_jref d; d_db := d_db d |}.

(** [iv_2diode], diode_equation.py:10-84: the updated junction, the function
    junction.iv and the array junction.current. *)
Definition iv_2diode (d : diode) (o : d_options) : res (diode * (R -> R) * list R) :=
  let! s := saturation d (o_T o) in
  let '(d1, j01, j02) := s in
  let n1 := or_default (d_n1 d) 1 in
  let n2 := or_default (d_n2 d) 2 in
  let jsc := photocurrent d1 o in
  let iv v := Rmin (two_diode j01 n1 j02 n2 (shunt d) jsc (o_T o) v) cap in
  Ok (set_jsc d1 jsc, iv, map iv (o_volt o)).

(** A sequence of solver calls on the same junction; the caller sees the exception
    of the first failing call (by [iv_2diode], diode_equation.py:10-84). *)
Fixpoint solve_all (d : diode) (os : list d_options) : res diode :=
  match os with
  | [] => Ok d
  | o :: os' => let! r := iv_2diode d o in solve_all (fst (fst r)) os'
  end.

(** * Helpers *)

(** [calculate_J01], diode_equation.py:443-461. *)
Definition calculate_J01 (Eg_in_eV T n : R) : R :=
  let Eg := Eg_in_eV * q in
  let Term1 := 2 * PI * n ^ 2 * q / (4 * PI ^ 3 * hbar ^ 3 * c ^ 2) in
  let Term2 := kb * T * exp (- Eg / (kb * T)) in
  let Term3 := Eg ^ 2 + 2 * Eg * kb * T + 2 * kb ^ 2 * T ^ 2 in
  Term1 * Term2 * Term3.

(** [calculate_J02_from_Voc], diode_equation.py:464-479. *)
Definition calculate_J02_from_Voc (J01 Jsc Voc T R_shunt : R) : R :=
  (Jsc - J01 * (exp (q * Voc / (kb * T)) - 1) - Voc / R_shunt) / (exp (q * Voc / (2 * kb * T)) - 1).
(** Its default R_shunt, line 464; also that of [calculate_J02_from_rad_eff], 482. *)
Definition default_R_shunt : R := 10 ^ 15.

(** [calculate_J02_from_rad_eff], diode_equation.py:482-500. *)
Definition calculate_J02_from_rad_eff (J01 eff V T R_shunt : R) : R :=
  (J01 * (exp (q * V / (kb * T)) - 1) * (1 / eff - 1) + V / R_shunt) / (exp (q * V / (2 * kb * T)) - 1).

(** [calculate_j02_from_J01_Jsc_reference_radiative_efficiency],
    diode_equation.py:503-507. *)
Definition j02_from_reference (J01 Jsc_ref eff T : R) : R :=
  let Voc := kb * T / q * ln (Jsc_ref * eff / J01 + 1) in
  (Jsc_ref - eff * Jsc_ref) / (exp (q * Voc / (2 * kb * T)) - 1).

(** [update_j0], diode_equation.py:510-527, on a list of (Eg, j01, j02); a missing
    Eg is an AssertionError. *)
Definition update_one (T Tref : R) (j : option R * R * R) : res (option R * R * R) :=
  let '(Eg, j01, j02) := j in
  match Eg with
  | None => Err AssertionError
  | Some E => Ok (Some E,
      j01 * (T / Tref) ^ 3 * exp (- E / (kb / q) * (1 / T - 1 / Tref)),
      j02 * Rpower (T / Tref) (5 / 3) * exp (- (1 / 2) * E / (kb / q) * (1 / T - 1 / Tref)))
  end.
(** With [update_one], diode_equation.py:510-527. *)
Fixpoint update_j0 (js : list (option R * R * R)) (T Tref : R) : res (list (option R * R * R)) :=
  match js with
  | [] => Ok []
  | j :: js' => let! a := update_one T Tref j in let! b := update_j0 js' T Tref in Ok (a :: b)
  end.
