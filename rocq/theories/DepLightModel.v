(** Model of the photocurrents and quantum efficiencies of the depletion approximation,
    solcore/analytic_solar_cells/depletion_approximation.py: [identify_parameters] (96-144), the light part of
    [iv_depletion] (259-351) and [qe_depletion] (687-869), in the mode "green". *)
From Coq Require Import Reals String List Bool Arith.
From Coquelicot Require Import Coquelicot.
From Verif Require Import Common PhysConst NpModel DetBalModel DepletionModel.
From Verif Require QwUnitModel.
From Coq Require Import List.
Import ListNotations.
Open Scope R_scope.
Open Scope list_scope.

(** * Parameters, lines 96-144 *)
(** Attributes of the junction that are set, and the parameters of a material, which may raise (for [identify_parameters], depletion_approximation.py, lines 96-144, lines 192-198). *)
Definition attrs := string -> option R.
(** For [identify_parameters], depletion_approximation.py, lines 96-144, lines 192-198. *)
Definition mat := string -> res R.
(** For [identify_parameters], depletion_approximation.py, lines 96-144, lines 192-198. *)
Record region := mkRegion { r_width : R; r_mat : mat }.
(** For [identify_parameters], depletion_approximation.py, lines 96-144, lines 192-198. *)
Definition attr_or (a : attrs) (k : string) (d : res R) : res R := match a k with Some x => Ok x | None => d end.
(** For [identify_parameters], depletion_approximation.py, lines 96-144, lines 192-198. *)
Definition or_zero (a : attrs) (k : string) : R := match a k with Some x => x | None => 0 end.
(** Lines 96-144 and, for Vbi and R_shunt, lines 192-198 *)
Definition identify_parameters (a : attrs) (T : R) (p n : region) (i : option region) : res dep_par :=
  let xi := match i with None => 0 | Some r => r_width r end in
  let! es_n := attr_or a "permittivity" (r_mat n "permittivity"%string) in
  let! es_p := attr_or a "permittivity" (r_mat p "permittivity"%string) in
  let! ln := attr_or a "ln" (r_mat p "electron_diffusion_length"%string) in
  let! lp := attr_or a "lp" (r_mat n "hole_diffusion_length"%string) in
  let! mup := attr_or a "mup" (r_mat p "electron_mobility"%string) in
  let! mun := attr_or a "mun" (r_mat n "hole_mobility"%string) in
  let! ni := r_mat n "ni"%string in
  let! Na := r_mat p "Na"%string in
  let! Nd := r_mat n "Nd"%string in
  Ok {| p_xn := r_width n; p_xp := r_width p; p_xi := xi; p_sn := or_zero a "sn"; p_sp := or_zero a "sp";
        p_ln := ln; p_lp := lp; p_dn := mun * (kb * T) / q; p_dp := mup * (kb * T) / q;
        p_Nd := Nd; p_Na := Na; p_ni := ni; p_esn := es_n; p_esp := es_p; p_T := T;
        p_Rsh := a "R_shunt"%string; p_Vbi := a "Vbi"%string |}.

(** * Regions *)
(** np.cumsum([0] + widths), lines 264-268 and 745-749 *)
Definition cum (widths : list R) (k : nat) : R := fold_right Rplus 0 (firstn k widths).
(** Depletion widths clipped to the regions: lines 204-210 for one voltage, and 720-729 at zero *)
Definition depleted (one : bool) (p : dep_par) (V : R) : R * R :=
  let ww := get_depletion_widths {| j_one_sided := one; j_wn := None; j_wp := None |}
              (p_esn p) (p_esp p) (built_in p) V (p_Na p) (p_Nd p) (p_xi p) in
  (clip_width (fst ww) (p_xn p), clip_width (snd ww) (p_xp p)).
(** What is at the top and at the bottom, lines 215-228 and 732-743: depletion width, diffusion length, surface
    recombination and diffusion coefficient *)
Record part := mkPart { t_w : R; t_l : R; t_s : R; t_d : R }.
(** With [part], depletion_approximation.py, lines 215-228 and 732-743. *)
Definition top_part (pol : polarity) (p : dep_par) (w : R * R) : part :=
  match pol with PN => mkPart (snd w) (p_ln p) (p_sp p) (p_dp p) | NP => mkPart (fst w) (p_lp p) (p_sn p) (p_dn p) end.
(** With [part], depletion_approximation.py, lines 215-228 and 732-743. *)
Definition bottom_part (pol : polarity) (p : dep_par) (w : R * R) : part :=
  match pol with PN => mkPart (fst w) (p_lp p) (p_sn p) (p_dn p) | NP => mkPart (snd w) (p_ln p) (p_sp p) (p_dp p) end.
(** The junction in the cell: its widths and the places of emitter and base (for [top_edges], depletion_approximation.py, lines 278-279, 301-302, 323-324 and 759-760, 775-776, 791-792). *)
Record place := mkPlace { l_widths : list R; l_top : nat; l_bottom : nat }.
(** Edges of the neutral regions and the depleted one between them, lines 278-279, 301-302, 323-324 and 759-760,
    775-776, 791-792 *)
Definition top_edges (l : place) (t : part) : R * R := (cum (l_widths l) (l_top l), cum (l_widths l) (S (l_top l)) - t_w t).
(** With [top_edges], depletion_approximation.py, lines 278-279, 301-302, 323-324 and 759-760, 775-776, 791-792. *)
Definition bottom_edges (l : place) (b : part) : R * R := (cum (l_widths l) (l_bottom l) + t_w b, cum (l_widths l) (S (l_bottom l))).
(** With [top_edges], depletion_approximation.py, lines 278-279, 301-302, 323-324 and 759-760, 775-776, 791-792. *)
Definition scr_edges (l : place) (t b : part) : R * R := (cum (l_widths l) (S (l_top l)) - t_w t, cum (l_widths l) (l_bottom l) + t_w b).

(** * Currents over the charge of the electron *)
(** np.linspace(a, b, n, endpoint=False) (for [scr_current], depletion_approximation.py, lines 679-684, lines 864-869). *)
Definition linspace_open (a b : R) (n : nat) : list R := map (fun i => a + (b - a) * INR i / INR n) (seq 0 n).
(** Lines 286-298 and 767-772, 308-320 and 783-788.  [g] is the generation at one wavelength, or over all of them.
    Simplified: quad_vec is the integral; in iv_depletion [g] is interpolated between 1001 points. *)
Definition diffusion_current (g : R -> R) (ph : R) (t : part) (ab : R * R) (sd : side) : R :=
  let xa := fst ab in
  let xbb := snd ab - (snd ab - fst ab) / 1001 in
  t_d t * Rabs (RInt (green_integrand xa xbb g (t_d t) (t_l t) (t_s t) ph sd) xa xbb
                / green_cp xa xbb (t_d t) (t_l t) (t_s t) sd).
(** get_J_sc_SCR, lines 679-684, and get_J_sc_SCR_vs_WL, lines 864-869 *)
Definition scr_current (g : R -> R) (ph : R) (ab : R * R) : R :=
  let zz := linspace_open (fst ab) (snd ab) 1001 in np_trapz (map (fun z => g z * ph) zz) zz.
(** Lines 796-800 *)
Definition absorbed_current (g : R -> R) (ph : R) (l : place) : R :=
  let zz := linspace (cum (l_widths l) (l_top l)) (cum (l_widths l) (S (l_bottom l))) 1001 in
  np_trapz (map (fun z => g z * ph) zz) zz.
(** Currents of the emitter, the base and the depleted region (for [qe_depletion], depletion_approximation.py, line 757). *)
Definition photocurrents (pol : polarity) (p : dep_par) (l : place) (w : R * R) (g : R -> R) (ph : R) : R * R * R :=
  let t := top_part pol p w in let b := bottom_part pol p w in
  (diffusion_current g ph t (top_edges l t) Top, diffusion_current g ph b (bottom_edges l b) Bottom,
   scr_current g ph (scr_edges l t b)).

(** * qe_depletion at one wavelength, lines 807-816 *)
(** For [qe_depletion], depletion_approximation.py, line 757. *)
Record qe := mkQe { eqe : R; eqe_emitter : R; eqe_base : R; eqe_scr : R; iqe : R }.
(** For [qe_depletion], depletion_approximation.py, line 757. *)
Definition qe_flux : R := 10 ^ 10.
(** For [qe_depletion], depletion_approximation.py, line 757. *)
Definition qe_at (ph : R) (one : bool) (pol : polarity) (p : dep_par) (l : place) (g : R -> R) : qe :=
  let js := photocurrents pol p l (depleted one p 0) g ph in
  let jt := fst (fst js) in let jb := snd (fst js) in let js := snd js in
  let j := jt + jb + js in
  let a := absorbed_current g ph l in
  mkQe (j / ph) (jt / ph) (jb / ph) (js / ph) (if Req_EM_T a 0 then 0 else j / a).
(** Line 757 *)
Definition qe_depletion (one : bool) (pol : polarity) (p : dep_par) (l : place) (g : R -> R) : qe := qe_at qe_flux one pol p l g.

(** * iv_depletion with light, lines 259-333 *)
(** id_v0, line 275: the voltage of the list that is nearest to zero *)
Definition reference_bias (pol : polarity) (p : dep_par) (vs : list R) : R :=
  let Vs := map (internal_bias pol p) vs in nth (QwUnitModel.nearest Vs 0) Vs 0.
(** Lines 298, 320 and 325; [gen] is the generation over all wavelengths *)
Definition light_terms (one : bool) (pol : polarity) (p : dep_par) (l : place) (gen : R -> R) (vs : list R) : R * R * R :=
  let js := photocurrents pol p l (depleted one p (reference_bias pol p vs)) gen 1 in
  (q * fst (fst js), q * snd (fst js), q * snd js).
(** Lines 331-333 *)
Definition light_current (one : bool) (pol : polarity) (p : dep_par) (l : place) (gen : R -> R) (vs : list R) (v : R) : option R :=
  let '(Jn, Jp, Jrec) := dark_terms one pol p v in
  let '(jt, jb, js) := light_terms one pol p l gen vs in
  match Jrec with
  | None => None
  | Some j => Some (pol_sign pol * (j + Jn + Jp + internal_bias pol p v / shunt p - jt - jb - js))
  end.
