(** Model of solcore/analytic_solar_cells/tunnel_junctions.py. *)
From Coq Require Import Reals List Arith Bool.
From Verif Require Import Common PhysConst InterpModel NpModel.
Import ListNotations.
Open Scope R_scope.
Open Scope list_scope.

(** A solved tunnel junction: the functions iv and vi, None where numpy gives inf
    or nan, and the array current (for [parametric], tunnel_junctions.py:25-85). *)
Record tunnel := { t_iv : R -> option R; t_vi : R -> option R; t_voltage : list R; t_current : list (option R) }.

(** [resistive_tunnel_junction], tunnel_junctions.py:5-22. *)
Definition np_divide (a b : R) : option R := if Req_EM_T b 0 then None else Some (a / b).
(** With [np_divide], tunnel_junctions.py:5-22. *)
Definition resistive (Rt : R) (volts : list R) : tunnel :=
  {| t_iv := fun v => np_divide v Rt; t_vi := fun j => Some (j * Rt);
     t_voltage := volts; t_current := map (fun v => np_divide v Rt) volts |}.

(** The attributes of a parametric tunnel junction, tunnel_junctions.py:38-63, 74. *)
Record parametric_args := {
  p_jpeak : R; p_vpeak : R; p_jvalley : R; p_vvalley : R; p_pref : R; p_j01 : R; p_pn : bool
}.
(** The three components and their sum, tunnel_junctions.py:41-68. *)
Definition tunnel_current (p : parametric_args) (v : R) : R := p_jpeak p * v / p_vpeak p * exp (1 - v / p_vpeak p).
(** With [tunnel_current], tunnel_junctions.py:41-68. *)
Definition excess_current (p : parametric_args) (v : R) : R := p_jvalley p * exp (p_pref p * (v - p_vvalley p)).
(** With [tunnel_current], tunnel_junctions.py:41-68. *)
Definition diffusion_current (p : parametric_args) (T v : R) : R := p_j01 p * exp (q * v / kb / T).
(** With [tunnel_current], tunnel_junctions.py:41-68. *)
Definition parametric_iv (p : parametric_args) (T v : R) : R :=
  tunnel_current p v + excess_current p v + diffusion_current p T v.
(** [MJ_current], tunnel_junctions.py:71-72. *)
Definition MJ_current (p : parametric_args) (T : R) (volts : list R) : list R :=
  map (fun v => if Rle_dec v (p_vpeak p) then parametric_iv p T v
                else Rmax (parametric_iv p T (p_vpeak p)) (parametric_iv p T v)) volts.
(** [parametric_tunnel_junction], tunnel_junctions.py:25-85 (all attributes
    present; v_peak and T non-zero; at least one voltage). *)
Definition parametric (p : parametric_args) (T : R) (volts : list R) : tunnel :=
  let mj := MJ_current p T volts in
  {| t_iv := fun v => Some (parametric_iv p T v);
     t_vi := fun j => if p_pn p then Some (np_interp mj (map Ropp volts) (- j))
                      else Some (np_interp mj volts j);
     t_voltage := volts; t_current := map (fun v => Some (parametric_iv p T v)) volts |}.

(** The loop of tunnel_junctions.py:105-108: the running maximum, from the first
    external current and the attribute [current] of the junction. *)
Fixpoint running (m : R) (cur : list R) : list R :=
  match cur with [] => [] | x :: cur' => Rmax m x :: running (Rmax m x) cur' end.
(** [external_tunnel_junction], tunnel_junctions.py:88-117.  [current] is the
    attribute of that name before the call; it is read at line 108 although it is
    only assigned at line 115.  A too short one is an IndexError; the external
    voltages must have the length of the currents for np.interp. *)
Definition external (ext_v ext_c : list R) (current : option (list R)) (volts : list R) : res tunnel :=
  match ext_c with
  | [] => Err IndexError
  | c0 :: ext_c' =>
      let! mj :=
        match ext_c', current with
        | [], _ => Ok [c0]
        | _, None => Err AttributeError
        | _, Some cur =>
            if Nat.leb (length ext_c) (length cur)
            then Ok (c0 :: running c0 (firstn (length ext_c') (tl cur)))
            else Err IndexError
        end in
      if Nat.eqb (length ext_v) (length ext_c) then
        Ok {| t_iv := fun v => Some (np_interp ext_v ext_c v);
              t_vi := fun j => Some (np_interp mj ext_v j);
              t_voltage := volts; t_current := map (fun v => Some (np_interp ext_v ext_c v)) volts |}
      else Err ValueError
  end.
