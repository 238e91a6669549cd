(** Model of the strain and strain-balancing code:
    solcore/quantum_mechanics/strain.py, the band edges of
    solcore/quantum_mechanics/kp_QW.py:16-109 and solcore/strain_balancing.py.
    Numbers are reals; printing and the science reference are left out. *)
From Coq Require Import Reals String List Bool ZArith.
From Verif Require Import Common PhysConst.
Import ListNotations.
Open Scope string_scope.
Open Scope R_scope.
Open Scope list_scope.

(** * Strained band edges *)

(** The material attributes read by strain.py:108-125, 149 and kp_QW.py:24-35, 68-79. *)
Record mat := {
  m_av : R; m_ac : R; m_b : R; m_c11 : R; m_c12 : R; m_a : R;
  m_so : R; m_gap : R; m_vbo : R; m_g1 : R; m_g2 : R; m_g3 : R; m_me : R; m_Ep : R
}.

(** The State filled by [strain_calculation_parameters], strain.py:105-152. *)
Record kstate := {
  k_av : R; k_ac : R; k_b : R; k_epsilon : R; k_exx : R; k_eyy : R; k_ezz : R; k_Tre : R;
  k_Pe : R; k_Qe : R; k_cb : R; k_vb : R; k_shear : R;
  k_dEc : R; k_dEhh : R; k_dElh : R; k_dEso : R
}.

(** numpy's sign, used at strain.py:56. *)
Definition sgn (x : R) : Z :=
  if Rlt_dec 0 x then 1%Z else if Rlt_dec x 0 then (-1)%Z else 0%Z.

(** The table [assert_sign] with the values it is compared to, in insertion order,
    strain.py:27-48: the first seven signs are flipped for tensile strain. *)
Definition sign_table (k : kstate) : list (R * Z) :=
  let flip := if Rlt_dec 0 (k_epsilon k) then (-1)%Z else 1%Z in
  [(k_epsilon k, (-1 * flip)%Z); (k_exx k, (-1 * flip)%Z); (k_eyy k, (-1 * flip)%Z);
   (k_ezz k, (1 * flip)%Z); (k_Pe k, (1 * flip)%Z); (k_Qe k, (-1 * flip)%Z);
   (k_dEc k, (1 * flip)%Z); (k_ac k, (-1)%Z); (k_av k, 1%Z); (k_b k, (-1)%Z)].

(** The loop of [strain_calculation_asserts], strain.py:53-65: zeros are skipped,
    a wrong sign raises. *)
Fixpoint check_signs (l : list (R * Z)) : res unit :=
  match l with
  | [] => Ok tt
  | (v, s) :: l' =>
      if Req_EM_T v 0 then check_signs l'
      else if Z.eqb (sgn v) s then check_signs l'
      else Err ValueError
  end.
(** With [check_signs], strain.py:53-65. *)
Definition strain_calculation_asserts (k : kstate) : res unit := check_signs (sign_table k).

(** [strain_calculation_parameters], strain.py:68-178; [SO] is the keyword of that
    name.  The attributes C11, C12, a0, a and epsilon_perp of the State are copies of
    values kept elsewhere and are not stored. *)
Definition strain_calculation_parameters (sub m : mat) (SO : bool) : res kstate :=
  let av := Rabs (m_av m) in
  let eps := (m_a sub - m_a m) / m_a m in
  let perp := -2 * m_c12 m / m_c11 m * eps in
  let tre := eps + eps + perp in
  let Pe := - av * tre in
  let Qe := - m_b m / 2 * (eps + eps - 2 * perp) in
  let shift := (m_so m) ^ 2 + 2 * m_so m * Qe + 9 * Qe ^ 2 in
  let k := {|
    k_av := av; k_ac := m_ac m; k_b := m_b m; k_epsilon := eps; k_exx := eps; k_eyy := eps;
    k_ezz := perp; k_Tre := tre; k_Pe := Pe; k_Qe := Qe;
    k_cb := m_ac m * tre; k_vb := av * tre;
    k_shear := 2 * m_b m * (1 + 2 * m_c12 m / m_c11 m) * eps;
    k_dEc := m_ac m * tre;
    k_dEhh := - Pe - Qe;
    k_dElh := if SO then - Pe + / 2 * (Qe - m_so m + sqrt shift) else - Pe + Qe;
    k_dEso := if SO then - Pe + / 2 * (Qe - m_so m - sqrt shift) else 0 |} in
  match strain_calculation_asserts k with
  | Ok _ => Ok k
  | Err e => Err e
  end.

(** The strain terms common to [kp4x4] and [kp6x6], kp_QW.py:37-43 and 81-87; the
    same formulas are at kp_bulk.py:27, 65-67 and 284-285. *)
Definition exx (m host : mat) : R := (m_a host - m_a m) / m_a m.
(** With [exx], kp_QW.py:37-43 and 81-87, kp_bulk.py:27, 65-67 and 284. *)
Definition ezz (m host : mat) : R := - 2 * m_c12 m / m_c11 m * exx m host.
(** With [exx], kp_QW.py:37-43 and 81-87, kp_bulk.py:27, 65-67 and 284. *)
Definition Oe (m host : mat) : R := m_ac m * (exx m host + exx m host + ezz m host).
(** With [exx], kp_QW.py:37-43 and 81-87, kp_bulk.py:27, 65-67 and 284. *)
Definition Pe (m host : mat) : R := - Rabs (m_av m) * (exx m host + exx m host + ezz m host).
(** With [exx], kp_QW.py:37-43 and 81-87, kp_bulk.py:27, 65-67 and 284. *)
Definition Qe (m host : mat) : R := - m_b m / 2 * (exx m host + exx m host - 2 * ezz m host).

(** Band edges and masses returned by [kp4x4], kp_QW.py:16-57. *)
Record bands4 := {
  b4_c : R; b4_hh : R; b4_lh : R; b4_me : R; b4_hh_p : R; b4_lh_p : R; b4_hh_t : R; b4_lh_t : R }.
(** With [bands4], kp_QW.py:16-57. *)
Definition kp4x4 (m host : mat) : bands4 :=
  {| b4_c := m_vbo m + m_gap m + Oe m host;
     b4_hh := m_vbo m - Pe m host - Qe m host;
     b4_lh := m_vbo m - Pe m host + Qe m host;
     b4_me := m_me m * electron_mass;
     b4_hh_p := 1 / (m_g1 m - 2 * m_g2 m) * electron_mass;
     b4_lh_p := 1 / (m_g1 m + 2 * m_g2 m) * electron_mass;
     b4_hh_t := 1 / (m_g1 m + m_g2 m) * electron_mass;
     b4_lh_t := 1 / (m_g1 m - m_g2 m) * electron_mass |}.

(** The closures [com] and [f] of [kp6x6], kp_QW.py:89-93. *)
Definition kp_x (m host : mat) : R :=
  let x := Qe m host / m_so m in if Req_EM_T x 0 then / 10 ^ 10 else x.
(** With [kp_x], kp_QW.py:89-93. *)
Definition com (x s : R) : R := x - 1 + s * sqrt (1 + 2 * x + 9 * x ^ 2).
(** With [kp_x], kp_QW.py:89-93. *)
Definition kp_f (x s : R) : R :=
  (2 * x * (1 + 3 / 2 * com x s) + 6 * x ^ 2) / (3 / 4 * (com x s) ^ 2 + com x s - 3 * x ^ 2).

(** Band edges and masses returned by [kp6x6], kp_QW.py:60-109. *)
Record bands6 := {
  b6_c : R; b6_hh : R; b6_lh : R; b6_so : R; b6_me : R;
  b6_hh_p : R; b6_lh_p : R; b6_so_p : R; b6_hh_t : R; b6_lh_t : R; b6_so_t : R }.
(** With [bands6], kp_QW.py:60-109. *)
Definition kp6x6 (m host : mat) : bands6 :=
  let Q := Qe m host in
  let D := m_so m in
  let x := kp_x m host in
  {| b6_c := m_vbo m + m_gap m + Oe m host;
     b6_hh := m_vbo m - Pe m host - Q;
     b6_lh := m_vbo m - Pe m host + / 2 * (Q - D + sqrt (D ^ 2 + 2 * D * Q + 9 * Q ^ 2));
     b6_so := m_vbo m - Pe m host + / 2 * (Q - D - sqrt (D ^ 2 + 2 * D * Q + 9 * Q ^ 2));
     b6_me := m_me m * electron_mass;
     b6_hh_p := 1 / (m_g1 m - 2 * m_g2 m) * electron_mass;
     b6_lh_p := 1 / (m_g1 m + 2 * kp_f x 1 * m_g2 m) * electron_mass;
     b6_so_p := 1 / (m_g1 m + 2 * kp_f x (-1) * m_g2 m) * electron_mass;
     b6_hh_t := 1 / (m_g1 m + m_g2 m) * electron_mass;
     b6_lh_t := 1 / (m_g1 m - kp_f x 1 * m_g2 m) * electron_mass;
     b6_so_t := 1 / (m_g1 m - kp_f x (-1) * m_g2 m) * electron_mass |}.

(** * Bisection *)

(** scipy.optimize.bisect as called at strain_balancing.py:70, 87 and 141 (default
    xtol 2e-12, rtol 4 eps, 100 iterations).  It is library code: the model follows
    its documented algorithm, halving the bracket and keeping the half with the sign
    change.  A function that raises aborts the search.  [sameb] compares the signs of
    two non-zero values. *)
Definition xtol : R := 2 / 10 ^ 12.
(** With [xtol], strain_balancing.py:70, 87 and 141. *)
Definition rtol : R := 4 / 2 ^ 52.
(** With [xtol], strain_balancing.py:70, 87 and 141. *)
Definition sameb (u v : R) : bool :=
  if Rlt_dec u 0 then (if Rlt_dec v 0 then true else false)
  else (if Rlt_dec v 0 then false else true).
(** With [xtol], strain_balancing.py:70, 87 and 141. *)
Fixpoint bisect_loop (n : nat) (f : R -> res R) (fa xa dm : R) : res R :=
  match n with
  | O => Err RuntimeError
  | S n' =>
      let dm' := dm / 2 in
      let xm := xa + dm' in
      let! fm := f xm in
      if Req_EM_T fm 0 then Ok xm
      else
        let xa' := if sameb fm fa then xm else xa in
        if Rlt_dec (Rabs dm') (xtol + rtol * Rabs xm) then Ok xm
        else bisect_loop n' f fa xa' dm'
  end.
(** With [xtol], strain_balancing.py:70, 87 and 141. *)
Definition bisect (f : R -> res R) (a b : R) : res R :=
  let! fa := f a in
  let! fb := f b in
  if Req_EM_T fa 0 then Ok a
  else if Req_EM_T fb 0 then Ok b
  else if sameb fa fb then Err ValueError
  else bisect_loop 100 f fa a (b - a).

(** * Strain balancing, strain_balancing.py:17-98 *)

(** [ParameterSystem().get_parameter(material, name, x=.., T=..)], strain_balancing.py:30. *)
Notation lookup := (string -> string -> R -> R -> res R).

(** [convert(v, "angstrom", "m")], strain_balancing.py:49-51. *)
Definition angstrom (v : R) : R := v / 10 ^ 10.

(** The stiffness A and the lattice constant of a material in metres,
    strain_balancing.py:37-51. *)
Definition stiffness (gp : lookup) (m : string) (x T : R) : res R :=
  let! c11 := gp m "c11" x T in
  let! c12 := gp m "c12" x T in
  Ok (c11 + c12 - 2 * c12 ^ 2 / c11).
(** With [stiffness], strain_balancing.py:37-51. *)
Definition lattice (gp : lookup) (m : string) (x T : R) : res R :=
  let! a := gp m "lattice_constant" x T in Ok (angstrom a).

(** The misfit of the two closures [func], strain_balancing.py:65 and 84. *)
Definition misfit (A1 t1 a1 A2 t2 a2 a0 : R) : R :=
  - (A1 * t1 * a2 ^ 2 * (a0 - a1)) / (A2 * a1 ^ 2 * (a0 - a2)) - t2.

(** The part of the returned dictionary that the call can change, strain_balancing.py:89-98. *)
Record balance := { r_t1 : R; r_x1 : R; r_t2 : R; r_x2 : R }.

(** [optimise], strain_balancing.py:17-98.  An option outside the documented list only
    prints a message (22-24). *)
Definition optimise (gp : lookup) (well : string) (t1 x1 : R) (barrier : string) (t2 x2 : R)
    (lat : string) (x0 : R) (option : string) (T : R) : res balance :=
  let! A1 := stiffness gp well x1 T in
  let! a1 := lattice gp well x1 T in
  let! A2 := stiffness gp barrier x2 T in
  let! a2 := lattice gp barrier x2 T in
  let! a0 := lattice gp lat x0 T in
  if String.eqb option "barrier_thickness" then
    Ok {| r_t1 := t1; r_x1 := x1; r_x2 := x2;
          r_t2 := - (A1 * t1 * a2 ^ 2 * (a0 - a1)) / (A2 * a1 ^ 2 * (a0 - a2)) |}
  else if String.eqb option "well_thickness" then
    Ok {| r_t1 := - (A2 * t2 * a1 ^ 2 * (a0 - a2)) / (A1 * a2 ^ 2 * (a0 - a1));
          r_x1 := x1; r_x2 := x2; r_t2 := t2 |}
  else if String.eqb option "well_fraction" then
    let! x := bisect (fun x =>
      let! A1 := stiffness gp well x T in
      let! a1 := lattice gp well x T in
      Ok (misfit A1 t1 a1 A2 t2 a2 a0)) 0 1 in
    Ok {| r_t1 := t1; r_x1 := x; r_t2 := t2; r_x2 := x2 |}
  else if String.eqb option "barrier_fraction" then
    let! x := bisect (fun x =>
      let! A2 := stiffness gp barrier x T in
      let! a2 := lattice gp barrier x T in
      let! a2' := (if Req_EM_T a0 a2 then
                     if Req_EM_T x 0 then lattice gp barrier (1 / 1000) T else Ok a2
                   else Ok a2) in
      Ok (misfit A1 t1 a1 A2 t2 a2' a0)) 0 1 in
    Ok {| r_t1 := t1; r_x1 := x1; r_t2 := t2; r_x2 := x |}
  else Ok {| r_t1 := t1; r_x1 := x1; r_t2 := t2; r_x2 := x2 |}.

(** * Critical thickness, strain_balancing.py:101-147 *)

(** [roots_at_soln], strain_balancing.py:138-139. *)
Definition mb_const (v f : R) : R := (1 - v / 4) / (f * PI * (1 + v)).
(** With [mb_const], strain_balancing.py:138-139. *)
Definition mb (v f hb : R) : R := hb / (ln hb + 1) - mb_const v f.

(** [critical_thickness] for scalar parameters, strain_balancing.py:101-147; the
    array broadcasting (121-134) is not modelled.  [fraction] is passed as the bowed
    element for both materials (108-115), [lattice_fraction] is not used, and the
    result is in angstrom before the final conversion (145-146). *)
Definition critical_thickness (gp : lookup) (layer lat : string) (fraction : R)
    (lattice_fraction : option R) (T : R) (during_growth : bool) : res R :=
  let! c11 := gp layer "c11" fraction T in
  let! c12 := gp layer "c12" fraction T in
  let! a := gp layer "lattice_constant" fraction T in
  let! al := gp lat "lattice_constant" fraction T in
  let b := a / sqrt 2 in
  let v := Rabs (c12 / (c11 + c12)) in
  let f := Rabs (a / al - 1) in
  match bisect (fun hb => Ok (mb v f hb)) (/ 10 ^ 10) (10 ^ 10) with
  | Ok hb => Ok (if during_growth then hb * b / 4 else hb * b)
  | Err e => Err e
  end.
