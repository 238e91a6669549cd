(** Model of the 8-band bulk Hamiltonian, solcore/quantum_mechanics/kp_bulk.py:17-129
    and 256-298.  The eigenvalue solver of numpy is a parameter; the rest is complex
    arithmetic.  [np.sqrt(Ep ...)] is the real square root, so the matrix elements are
    as in the code for Ep >= 0. *)
From Coq Require Import Reals String List Bool.
From Coquelicot Require Import Coquelicot.
From Coq Require Import List.
From Verif Require Import Common PhysConst NpModel StrainModel.
Import ListNotations.
Open Scope R_scope.
Open Scope list_scope.

(** The arguments of [eight_band_strain_hamiltonian], kp_bulk.py:18-19; a0 is not used. *)
Record kp_in := {
  i_kx : R; i_ky : R; i_kz : R; i_Ev0 : R; i_Ec0 : R; i_exx : R; i_ezz : R; i_me : R;
  i_g1 : R; i_g2 : R; i_g3 : R; i_Delta : R; i_ac : R; i_av : R; i_b : R; i_Ep : R }.

Section Terms.
  Context (i : kp_in).
  Let kx := i_kx i. Let ky := i_ky i. Let kz := i_kz i.
  Let Eg := i_Ec0 i - i_Ev0 i.
  (** kp_bulk.py:39, 42-48 *)
  Definition P0 : R := sqrt (i_Ep i * hbar ^ 2 / (2 * electron_mass)).
  (** With [P0], kp_bulk.py:39, 42-48. *)
  Definition gc : R := 1 / (i_me i / electron_mass) - i_Ep i / 3 * (2 / Eg + 1 / (Eg + i_Delta i)).
  (** With [P0], kp_bulk.py:39, 42-48. *)
  Definition g1' : R := i_g1 i - i_Ep i / (3 * Eg + i_Delta i).
  (** With [P0], kp_bulk.py:39, 42-48. *)
  Definition g2' : R := i_g2 i - i_Ep i / (6 * Eg + 2 * i_Delta i).
  (** With [P0], kp_bulk.py:39, 42-48. *)
  Definition g3' : R := i_g3 i - i_Ep i / (6 * Eg + 2 * i_Delta i).
  (** With [P0], kp_bulk.py:39, 42-48. *)
  Definition Ck : R := hbar ^ 2 / (2 * electron_mass).
  (** kp_bulk.py:51-57 and the hand-written conjugates 60-62 *)
  Definition Ok_ : R := Ck * gc * (kx ^ 2 + ky ^ 2 + kz ^ 2).
  (** With [Ok_], kp_bulk.py:51-57. *)
  Definition Pk : R := Ck * g1' * (kx ^ 2 + ky ^ 2 + kz ^ 2).
  (** With [Ok_], kp_bulk.py:51-57. *)
  Definition Qk : R := Ck * g2' * (kx ^ 2 + ky ^ 2 - 2 * kz ^ 2).
  (** With [Ok_], kp_bulk.py:51-57. *)
  Definition Rk : C := (Ck * sqrt 3 * (g2' * (kx ^ 2 - ky ^ 2) - 2 * Ci * g3' * kx * ky))%C.
  (** With [Ok_], kp_bulk.py:51-57. *)
  Definition Sk : C := (Ck * sqrt 6 * g3' * (kx - Ci * ky) * kz)%C.
  (** With [Ok_], kp_bulk.py:51-57. *)
  Definition Tk : C := (1 / sqrt 6 * P0 * (kx + Ci * ky))%C.
  (** With [Ok_], kp_bulk.py:51-57. *)
  Definition Uk : R := 1 / sqrt 3 * P0 * kz.
  (** With [Ok_], kp_bulk.py:51-57. *)
  Definition Rkc : C := (Ck * sqrt 3 * (g2' * (kx ^ 2 - ky ^ 2) + 2 * Ci * g3' * kx * ky))%C.
  (** With [Ok_], kp_bulk.py:51-57. *)
  Definition Skc : C := (Ck * sqrt 6 * g3' * (kx + Ci * ky) * kz)%C.
  (** With [Ok_], kp_bulk.py:51-57. *)
  Definition Tkc : C := (1 / sqrt 6 * P0 * (kx - Ci * ky))%C.
  (** kp_bulk.py:65-67 with eyy = exx (93) *)
  Definition Oe8 : R := i_ac i * (i_exx i + i_exx i + i_ezz i).
  (** With [Oe8], kp_bulk.py:65-67. *)
  Definition Pe8 : R := - Rabs (i_av i) * (i_exx i + i_exx i + i_ezz i).
  (** With [Oe8], kp_bulk.py:65-67. *)
  Definition Qe8 : R := - i_b i / 2 * (i_exx i + i_exx i - 2 * i_ezz i).
  (** kp_bulk.py:74-106 *)
  Definition t_cb : R := i_Ec0 i + (Ok_ + Oe8).
  (** With [t_cb], kp_bulk.py:74-106. *)
  Definition t_p : R := Pk + Pe8.
  (** With [t_cb], kp_bulk.py:74-106. *)
  Definition t_q : R := Qk + Qe8.
  (** With [t_cb], kp_bulk.py:74-106. *)
  Definition t_hh : R := i_Ev0 i - (t_p + t_q).
  (** With [t_cb], kp_bulk.py:74-106. *)
  Definition t_lh : R := i_Ev0 i - (t_p - t_q).
  (** With [t_cb], kp_bulk.py:74-106. *)
  Definition t_so : R := i_Ev0 i - (t_p + i_Delta i).
End Terms.

(** The matrix, kp_bulk.py:108-117. *)
Definition H_ST (i : kp_in) : list (list C) :=
  let s2 := RtoC (sqrt 2) in
  let s3 := RtoC (sqrt 3) in
  let cb := RtoC (t_cb i) in let hh := RtoC (t_hh i) in
  let lh := RtoC (t_lh i) in let so := RtoC (t_so i) in
  let q := RtoC (t_q i) in let u := RtoC (Uk i) in
  let r := Rk i in let s := Sk i in let t := Tk i in
  let rc := Rkc i in let sc := Skc i in let tc := Tkc i in
  let o := RtoC 0 in
  ([[cb; - s3 * t; s2 * u; - u; o; o; - tc; - s2 * tc];
    [- s3 * tc; hh; s2 * s; - s; o; o; - r; - s2 * r];
    [s2 * u; s2 * sc; lh; - s2 * q; tc; r; o; s3 * s];
    [- u; - sc; - s2 * q; so; s2 * tc; s2 * r; - s3 * s; o];
    [o; o; t; s2 * t; cb; - s3 * tc; s2 * u; - u];
    [o; o; rc; s2 * rc; - s3 * t; hh; s2 * sc; - sc];
    [- t; - rc; o; - s3 * sc; s2 * u; s2 * s; lh; - s2 * q];
    [- s2 * t; - s2 * rc; s3 * sc; o; - u; - s; - s2 * q; so]])%C.

(** Matrix entries; numpy's transpose, kp_bulk.py:125. *)
Definition entry (M : list (list C)) (i j : nat) : C := nth j (nth i M []) (RtoC 0).
(** With [entry], kp_bulk.py:125. *)
Definition transpose (n : nat) (M : list (list C)) : list (list C) :=
  map (fun i => map (fun j => entry M j i) (seq 0 n)) (seq 0 n).

(** [eight_band_strain_hamiltonian], kp_bulk.py:17-129: [eig] is numpy.linalg.eig,
    returning the pairs of eigenvalue and eigenvector; the result is the sorted list of
    the real parts (128). *)
Definition eight_band (eig : list (list C) -> list (C * (nat -> C))) (i : kp_in) : list R :=
  np_sort (map (fun p => fst (fst p)) (eig (transpose 8 (H_ST i)))).

(** The arguments [KPbands] passes at the zone centre, kp_bulk.py:269-290. *)
Definition edge_args (m host : mat) : kp_in :=
  let e := (m_a host - m_a m) / m_a m in
  {| i_kx := 0; i_ky := 0; i_kz := 0; i_Ev0 := m_vbo m; i_Ec0 := m_vbo m + m_gap m;
     i_exx := e; i_ezz := - 2 * m_c12 m / m_c11 m * e; i_me := m_me m * electron_mass;
     i_g1 := m_g1 m; i_g2 := m_g2 m; i_g3 := m_g3 m; i_Delta := m_so m;
     i_ac := m_ac m; i_av := m_av m; i_b := m_b m; i_Ep := m_Ep m |}.

(** [KPbands(..., return_edges_only=True)], kp_bulk.py:287-298: every second band is
    unpacked as so, lh, hh, c; lh and hh are swapped for a tensile layer.  Returned as
    (c, hh, lh, so). *)
Definition KPbands_edges eig (m host : mat) : res (R * R * R * R) :=
  match eight_band eig (edge_args m host) with
  | [so; _; lh; _; hh; _; c; _] =>
      Ok (if Rlt_dec (m_a m) (m_a host) then (c, lh, hh, so) else (c, hh, lh, so))
  | _ => Err ValueError
  end.
