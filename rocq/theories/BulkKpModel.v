(** Model of the bulk bands and effective masses of solcore/quantum_mechanics/kp_bulk.py:132-413.
    The eigenvalue solver of numpy and [curve_fit] of scipy are parameters.  Plots
    (graph, plot_result) are left out: they do not change what is returned. *)
From Coq Require Import Reals String List Bool Arith.
From Coquelicot Require Import Coquelicot.
From Verif Require Import Common PhysConst NpModel StrainModel KpModel DetBalModel CrystalModel.
From Coq Require Import List.
Import ListNotations.
Open Scope R_scope.
Open Scope list_scope.

(** numpy's division of floats: a division by zero is inf or nan, [None] (for [point_mass], kp_bulk.py, line 204). *)
Definition fdiv_ (x y : R) : option R := if Req_EM_T y 0 then None else Some (x / y).

(** effective_mass_energy, lines 132-133 *)
Definition effective_mass_energy (k m E0 : R) : R := E0 + hbar ^ 2 / (2 * m) * k ^ 2.

(** The arguments passed to [eight_band_strain_hamiltonian]: lines 152-169 (kp_bands, where exx is
    - (a - a_host) / a), 269-285 and 303-305 (KPbands), at the wave vector k. *)
Definition bulk_args (m host : mat) (k : vec) : kp_in :=
  let e := (m_a host - m_a m) / m_a m in
  {| i_kx := vx k; i_ky := vy k; i_kz := vz k; i_Ev0 := m_vbo m; i_Ec0 := m_vbo m + m_gap m;
     i_exx := e; i_ezz := - 2 * m_c12 m / m_c11 m * e; i_me := m_me m * electron_mass;
     i_g1 := m_g1 m; i_g2 := m_g2 m; i_g3 := m_g3 m; i_Delta := m_so m;
     i_ac := m_ac m; i_av := m_av m; i_b := m_b m; i_Ep := m_Ep m |}.

Section Bulk.
  Context (eig : list (list C) -> list (C * (nat -> C))).

  (** [so, lh, hh, c = l[::2]] and the swap for a tensile layer, lines 176-179 and 208-211; in the
      order (c, hh, lh, so).  Lists of eight bands only. *)
  Definition named {A} (m host : mat) (l : list A) : res (A * A * A * A) :=
    match l with
    | [so; _; lh; _; hh; _; c; _] =>
        Ok (if Rlt_dec (m_a m) (m_a host) then (c, lh, hh, so) else (c, hh, lh, so))
    | _ => Err ValueError
    end.

  (** Line 204; the division by deltaE may be one by zero. *)
  Definition point_mass (kmax fpE oE : R) : option R :=
    option_map (fun x => x * kmax ^ 2) (fdiv_ (hbar ^ 2) (2 * (fpE - oE))).

  (** kp_bands, lines 136-253: the bands, the effective masses when [fit] (before np.abs, 246-248).
      kx and ky are overwritten at 172-173.  [return_so] is left out: the caller drops the last of
      the four. *)
  Definition fit_point (m : mat) (dir : string) : res vec :=
    let! target := critical_point (m_a m) dir in
    Ok (vadd (0, 0, 0) (vscale (5 / 100) (vsub target (0, 0, 0)))).
  (** With [fit_point], kp_bulk.py, lines 136-253. *)
  Definition point_masses (m host : mat) (dir : string) : res (list (option R)) :=
    let! f := fit_point m dir in
    let at_gamma := eight_band eig (bulk_args m host (0, 0, 0)) in
    let at_fit := eight_band eig (bulk_args m host f) in
    Ok (map (fun p => point_mass (vnorm f) (fst p) (snd p)) (combine at_fit at_gamma)).
  (** With [fit_point], kp_bulk.py, lines 136-253. *)
  Definition kp_bands (m host : mat) (kx ky kz : R) (fit : bool) (dir : string)
    : res ((R * R * R * R) * option (option R * option R * option R * option R)) :=
    let! edges := named m host (eight_band eig (bulk_args m host (0, 0, kz))) in
    if fit then
      let! ms := point_masses m host dir in
      let! masses := named m host (map (option_map Rabs) ms) in
      Ok (edges, Some masses)
    else Ok (edges, None).

  (** [zip( *rows )], line 308 *)
  Definition zip_star (rows : list (list R)) : list (list R) :=
    match rows with
    | [] => []
    | r :: rs => map (fun i => map (fun row => nth i row 0) rows)
                     (seq 0 (fold_left Nat.min (map (@length R) rs) (length r)))
    end.
  (** KPbands, lines 256-320, without [return_edges_only]: the norms of the wave vectors, then the bands *)
  Definition KPbands_full (m host : mat) (t p fraction : R) (points : nat) (vin : option vec) : list (list R) :=
    let allk := kvector (m_a m) t p fraction points vin in
    map vnorm allk :: zip_star (map (fun k => eight_band eig (bulk_args m host k)) allk).

  (** parabolic, lines 371-372 *)
  Definition parabolic (k mr : R) : R := hbar ^ 2 / (2 * electron_mass * mr) * k ^ 2.

  (** [curve_fit(parabolic, ks, es, p0, sigma)] returning the relative mass *)
  Context (curve_fit : list R -> list R -> option R -> list R -> res R).

  (** Line 334 *)
  Definition weigth (a0 dk k : R) : R := exp (- k ^ 2 / (dk * (2 * PI / a0)) ^ 2).
  (** [x[weigth > 0.01]], line 343 *)
  Definition kept (a0 dk : R) (ks xs : list R) : list R :=
    map snd (filter (fun p => if Rlt_dec (1 / 100) (weigth a0 dk (fst p)) then true else false) (combine ks xs)).
  (** Lines 339-340; the indices ask for three points *)
  Definition guess (ks band : list R) : res (option R) :=
    match ks, band with
    | k0 :: k1 :: k2 :: _, e0 :: e1 :: e2 :: _ =>
        Ok (option_map (fun x => x * hbar ^ 2 / electron_mass) (fdiv_ ((k2 - k1) * (k1 - k0)) (e2 - 2 * e1 + e0)))
    | _, _ => Err IndexError
    end.
  (** Lines 336-348 *)
  Definition fit_band (a0 dk : R) (ks band : list R) : res R :=
    let! p0 := guess ks band in
    curve_fit (kept a0 dk ks ks) (map (fun e => e - nth 0 band 0) (kept a0 dk ks band)) p0
              (map (weigth a0 dk) (kept a0 dk ks ks)).
  (** [bands[1], bands[3], ...], line 335 *)
  Fixpoint every_other {A} (l : list A) : list A :=
    match l with x :: _ :: r => x :: every_other r | x :: [] => [x] | [] => [] end.
  (** With [every_other], kp_bulk.py, line 335. *)
  Fixpoint fit_all (a0 dk : R) (ks : list R) (bands : list (list R)) : res (list R) :=
    match bands with
    | [] => Ok []
    | b :: r => let! m := fit_band a0 dk ks b in let! ms := fit_all a0 dk ks r in Ok (m :: ms)
    end.
  (** fit_effective_masses, lines 323-368; line 359 asks for three masses *)
  Definition fit_effective_masses (bands : list (list R)) (m host : mat) (dk : R) : res (list R) :=
    match bands with
    | [] => Err IndexError
    | ks :: bs =>
        let! ms := fit_all (m_a m) dk ks (every_other bs) in
        let! sw := (if Rlt_dec (m_a m) (m_a host) then
                      match ms with x :: y :: z :: r => Ok (x :: z :: y :: r) | _ => Err IndexError end
                    else Ok ms) in
        Ok (rev (map (fun x => Rabs x * electron_mass) sw))
    end.

  (** average_inplane_effective_mass, lines 375-403.  Lines 389-396: the four running sums; fewer
      than four masses are an IndexError. *)
  Definition masses_along (m host : mat) (dk th : R) : res (R * R * R * R) :=
    let! r := fit_effective_masses (KPbands_full m host th (PI / 2) (2 / 10) 50 None) m host dk in
    match r with
    | mc :: mhh :: mlh :: mso :: _ => Ok (mc, mhh, mlh, mso)
    | _ => Err IndexError
    end.
  (** With [masses_along], kp_bulk.py, lines 375-403, lines 389-396. *)
  Definition add4 (s x : R * R * R * R) : R * R * R * R :=
    let '(a, b, c, d) := s in let '(a', b', c', d') := x in (a + a', b + b', c + c', d + d').
  (** With [masses_along], kp_bulk.py, lines 375-403, lines 389-396. *)
  Fixpoint sum_along (m host : mat) (dk : R) (s : R * R * R * R) (ts : list R) : res (R * R * R * R) :=
    match ts with
    | [] => Ok s
    | th :: r => let! x := masses_along m host dk th in sum_along m host dk (add4 s x) r
    end.
  (** Lines 380-381 and 398-403; with no direction the sums are the int 0 and 0 / 0 raises *)
  Definition average_inplane (m host : mat) (points : nat) (dk : R) : res (R * R * R * R) :=
    let! s := sum_along m host dk (0, 0, 0, 0) (linspace 0 (PI / 4) points) in
    match points with
    | O => Err ZeroDivisionError
    | _ => let '(a, b, c, d) := s in
           let n := INR points in Ok (a / n, b / n, c / n, d / n)
    end.
  (** kp8x8_bulk, lines 406-413 *)
  Definition kp8x8_bulk (m host : mat) (points : nat) (dk : R) : res ((R * R * R * R) * (R * R * R * R)) :=
    let! masses := average_inplane m host points dk in
    let! edges := KPbands_edges eig m host in
    Ok (edges, masses).
End Bulk.
