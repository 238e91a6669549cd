(** Model of solcore/absorption_calculator/absorption_QW.py. Numbers are ideal reals, arrays are
    lists; arrays multiplied with each other are taken to have the same length. *)
From Coq Require Import Reals String List Bool Arith ZArith.
From Verif Require Import Common PhysConst NpModel.
From Coq Require Import List.
Import ListNotations.
Open Scope R_scope.
Open Scope list_scope.

(** Line 6 *)
Definition heaviside (x : R) : R := if Rlt_dec x 0 then 0 else 1.
(** Lines 8-9 *)
Definition lorentz (x centre hwhm : R) : R := 1 / PI * (5 / 10 * hwhm) / ((x - centre) ^ 2 + (5 / 10 * hwhm) ^ 2).
(** Lines 10-11 *)
Definition gauss (x centre hwhm : R) : R :=
  1 / sqrt (2 * PI) / (5 / 10 * hwhm) * exp (- (5 / 10) * (x - centre) ^ 2 / (5 / 10 * hwhm) ^ 2).
(** The reduced mass, lines 25, 44, 69, 97, 136, 189. *)
Definition reduced (me mh : R) : R := me * mh / (me + mh).
(** exciton_rydberg_energy_2d, lines 14-27 (28-31 are not reached) *)
Definition rydberg (me mh eps_r : R) : R := reduced me mh * q ^ 4 / (2 * hbar ^ 2 * (4 * PI * eps_r * vacuum_permittivity) ^ 2).
(** exciton_bohr_radius, lines 34-45 *)
Definition bohr_radius (me mh eps : R) : R := hbar ^ 2 / reduced me mh * (4 * PI * eps / q ^ 2).

(** Lines 68, 96, 135, 188 *)
Definition prefactor (nr E : R) : R := PI * q ^ 2 / (nr * c * vacuum_permittivity * electron_mass ^ 2 * E / hbar).
(** Lines 70, 98, 137, 190 *)
Definition dos_2d (mr w : R) : R := mr / (PI * hbar ^ 2 * w).
(** Lines 73, 101, 140, 193 *)
Definition overlap (psi_e psi_h z : list R) : R := np_trapz (map (fun p => fst p * snd p) (combine psi_e psi_h)) z ^ 2.
(** Lines 71, 99, 138, 191 *)
Definition m_bulk (Ep : R) : R := electron_mass / 6 * Ep.

(** alpha_c_hh_TE, lines 48-74 *)
Definition alpha_hh (E : R) (z : list R) (Ee Eh : R) (pe ph : list R) (w me mh Ep nr : R) : R :=
  prefactor nr E * overlap pe ph z * (3 / 2 * m_bulk Ep) * dos_2d (reduced me mh) w * heaviside (E - (Ee - Eh)).
(** alpha_c_lh_TE, lines 77-102 *)
Definition alpha_lh (E : R) (z : list R) (Ee El : R) (pe pl : list R) (w me ml Ep nr : R) : R :=
  prefactor nr E * overlap pe pl z * (1 / 2 * m_bulk Ep) * dos_2d (reduced me ml) w * heaviside (E - (Ee - El)).

(** The name of the line shape: "Gauss", or anything else (lines 148-151, 200-203). *)
Definition line (shape : string) (x centre hwhm : R) : R :=
  if String.eqb shape "Gauss" then gauss x centre hwhm else lorentz x centre hwhm.
(** alpha_exciton_ehh_TE, lines 105-155 *)
Definition exciton_hh (n : Z) (E : R) (z : list R) (Ee Eh : R) (pe ph : list R) (w me mh Ep nr eps hwhm d : R) (shape : string) : res R :=
  if (n <? 1)%Z then Err ValueError
  else if Rlt_dec d 0 then Err ValueError
  else if Rlt_dec (5 / 10) d then Err ValueError
  else
    let ry := rydberg me mh (eps / vacuum_permittivity) in
    let en := - ry / (IZR n - d) ^ 2 in
    Ok (prefactor nr E * overlap pe ph z * (3 / 2 * m_bulk Ep) * dos_2d (reduced me mh) w
        * (2 * ry / (IZR n - d) ^ 3) * line shape E (Ee - Eh + en) hwhm).
(** alpha_exciton_elh_TE, lines 158-207 *)
Definition exciton_lh (n : Z) (E : R) (z : list R) (Ee El : R) (pe pl : list R) (w me ml Ep nr eps hwhm d : R) (shape : string) : res R :=
  if (n <? 1)%Z then Err ValueError
  else if Rlt_dec d 0 then Err ValueError
  else if Rlt_dec (5 / 10) d then Err ValueError
  else
    let ry := rydberg me ml (eps / vacuum_permittivity) in
    let en := - ry / (IZR n - d) ^ 2 in
    Ok (prefactor nr E * overlap pe pl z * (1 / 2 * m_bulk Ep) * dos_2d (reduced me ml) w
        * (2 * ry / (IZR n - d) ^ 3) * line shape E (Ee - El + en) hwhm).

(** The double loops of lines 226-230 and 249-253, with either of the functions. *)
Definition sum_pairs (alpha : R -> list R -> R -> list R -> R) (Ee : list R) (pe : list (list R)) (Eh : list R) (ph : list (list R)) : R :=
  fold_left (fun a e => fold_left (fun a h => a + alpha (fst e) (snd e) (fst h) (snd h)) (combine Eh ph) a) (combine Ee pe) 0.
(** sum_alpha_c_hh_TE and sum_alpha_c_lh_TE, lines 210-253 *)
Definition sum_hh (E : R) (z Ee Eh : list R) (pe ph : list (list R)) (w me mh Ep nr : R) : R :=
  sum_pairs (fun e p e' p' => alpha_hh E z e e' p p' w me mh Ep nr) Ee pe Eh ph.
(** With [sum_hh], absorption_QW.py, lines 210-253. *)
Definition sum_lh (E : R) (z Ee El : list R) (pe pl : list (list R)) (w me ml Ep nr : R) : R :=
  sum_pairs (fun e p e' p' => alpha_lh E z e e' p p' w me ml Ep nr) Ee pe El pl.
(** The loops of lines 277-289 and 313-325: the i-th electron with the i-th hole, index i + 1; the
    energies are there, a wave function that is missing is an IndexError. *)
Fixpoint sum_excitons (ex : Z -> R -> list R -> R -> list R -> res R) (i : Z) (Ee Eh : list R) (pe ph : list (list R)) (a : R) : res R :=
  match Ee, Eh with
  | e :: Ee', h :: Eh' =>
      match pe, ph with
      | p :: pe', p' :: ph' =>
          let! x := ex (i + 1)%Z e p h p' in
          sum_excitons ex (i + 1)%Z Ee' Eh' pe' ph' (a + x)
      | _, _ => Err IndexError
      end
  | _, _ => Ok a
  end.
(** sum_alpha_exciton_c_hh_TE and sum_alpha_exciton_c_lh_TE, lines 256-325 *)
Definition sum_exciton_hh (E : R) (z Ee Eh : list R) (pe ph : list (list R)) (w me mh Ep nr eps hwhm d : R) (shape : string) : res R :=
  sum_excitons (fun n e p e' p' => exciton_hh n E z e e' p p' w me mh Ep nr eps hwhm d shape) 0 Ee Eh pe ph 0.
(** With [sum_exciton_hh], absorption_QW.py, lines 256-325. *)
Definition sum_exciton_lh (E : R) (z Ee El : list R) (pe pl : list (list R)) (w me ml Ep nr eps hwhm d : R) (shape : string) : res R :=
  sum_excitons (fun n e p e' p' => exciton_lh n E z e e' p p' w me ml Ep nr eps hwhm d shape) 0 Ee El pe pl 0.

(** The part of the output of the Schrodinger solver that is used. The mass tables may be absent (for [masses], absorption_QW.py, lines 348-357). *)
Record qm_result : Type := QM
  { qm_x : list R; qm_Ee : list R; qm_Ehh : list R; qm_Elh : list R;
    qm_pe : list (list R); qm_phh : list (list R); qm_plh : list (list R);
    qm_me : list R; qm_mhh : option (list R); qm_mlh : option (list R);
    qm_mhh_t : option (list R); qm_mlh_t : option (list R) }.
(** [round(points / 2.0)]: to the even one of two neighbours. *)
Definition round_half (n : nat) : nat :=
  let k := (n / 2)%nat in if Nat.even n then k else if Nat.even k then k else S k.
(** For [masses], absorption_QW.py, lines 348-357. *)
Definition nthR (l : list R) (i : nat) : res R := match nth_error l i with Some x => Ok x | None => Err IndexError end.
(** For [masses], absorption_QW.py, lines 348-357. *)
Definition table (o : option (list R)) (i : nat) : res R := match o with Some l => nthR l i | None => Err KeyError end.
(** Lines 348-357: the masses of electrons, heavy and light holes. *)
Definition masses (r : qm_result) : res (R * R * R) :=
  let i := round_half (length (qm_me r)) in
  let! me := nthR (qm_me r) i in
  match (let! a := table (qm_mhh r) i in let! b := table (qm_mlh r) i in Ok (a, b)) with
  | Ok ab => Ok (me, fst ab, snd ab)
  | Err KeyError => let! a := table (qm_mhh_t r) i in let! b := table (qm_mlh_t r) i in Ok (me, a, b)
  | Err e => Err e
  end.
(** The four contributions at one energy, lines 367-380. *)
Record parts : Type := Parts { p_hh : R; p_lh : R; p_xhh : R; p_xlh : R }.
(** With [parts], absorption_QW.py, lines 367-380. *)
Definition parts_at (r : qm_result) (w me mhh mlh Ep nr eps hwhm d : R) (shape : string) (E : R) : res parts :=
  let! xh := sum_exciton_hh E (qm_x r) (qm_Ee r) (qm_Ehh r) (qm_pe r) (qm_phh r) w me mhh Ep nr eps hwhm d shape in
  let! xl := sum_exciton_lh E (qm_x r) (qm_Ee r) (qm_Elh r) (qm_pe r) (qm_plh r) w me mlh Ep nr eps hwhm d shape in
  Ok (Parts (sum_hh E (qm_x r) (qm_Ee r) (qm_Ehh r) (qm_pe r) (qm_phh r) w me mhh Ep nr)
            (sum_lh E (qm_x r) (qm_Ee r) (qm_Elh r) (qm_pe r) (qm_plh r) w me mlh Ep nr) xh xl).
(** With [parts], absorption_QW.py, lines 367-380. *)
Fixpoint parts_all (f : R -> res parts) (es : list R) : res (list parts) :=
  match es with [] => Ok [] | e :: r => let! p := f e in let! ps := parts_all f r in Ok (p :: ps) end.
(** The tuple of line 397. *)
Record alpha_result : Type := AlphaResult
  { al_E : list R; al_sum : list R; al_TE : list R; al_TM : list R; al_TE_raw : list R; al_TM_raw : list R }.
(** Lines 388-396 at one energy. *)
Definition te_raw (p : parts) : R := p_hh p + p_lh p + p_xhh p + p_xlh p.
(** With [te_raw], absorption_QW.py, lines 388-396. *)
Definition tm_raw (p : parts) : R := 4 * p_lh p + 4 * p_xlh p.
(** With [te_raw], absorption_QW.py, lines 388-396. *)
Definition te (theta : R) (p : parts) : R := te_raw p * (cos theta ^ 2 + 5 / 10 * sin theta ^ 2).
(** With [te_raw], absorption_QW.py, lines 388-396. *)
Definition tm (theta : R) (p : parts) : R := 5 / 10 * tm_raw p * sin theta ^ 2.
(** calc_alpha, lines 328-397; without energies it is a TypeError. *)
Definition calc_alpha (r : qm_result) (w Ep nr hwhm d theta eps : R) (espace : option (list R)) (shape : string) : res alpha_result :=
  let! m := masses r in
  match espace with
  | None => Err TypeError
  | Some es =>
      let! ps := parts_all (parts_at r w (fst (fst m)) (snd (fst m)) (snd m) Ep nr eps hwhm d shape) es in
      Ok (AlphaResult es (map (fun p => te theta p + tm theta p) ps) (map (te theta) ps) (map (tm theta) ps) (map te_raw ps) (map tm_raw ps))
  end.

(** NonBlackBodyEmission, lines 400-414 *)
Definition non_black_body (E voltage nr T : R) : R :=
  2 * nr ^ 2 / h ^ 3 / c ^ 2 * E ^ 2 / (exp ((E - q * voltage) / kb / T) - 1).
(** calc_emission, lines 417-447: energies, all, TE, TM. [voltage] is not used. *)
Definition emission_te (well_width theta E a : R) : R :=
  non_black_body E 0 (35 / 10) 300 * (1 - exp (- a * well_width * (cos theta ^ 2 + 5 / 10 * sin theta ^ 2))).
(** With [emission_te], absorption_QW.py, lines 417-447. *)
Definition emission_tm (well_width theta E a : R) : R :=
  non_black_body E 0 (35 / 10) 300 * (1 - exp (- a * well_width * (5 / 10) * sin theta ^ 2)).
(** With [emission_te], absorption_QW.py, lines 417-447. *)
Definition calc_emission (al : alpha_result) (well_width voltage theta : R) : list R * list R * list R * list R :=
  let te := map (fun p => emission_te well_width theta (fst p) (snd p)) (combine (al_E al) (al_TE_raw al)) in
  let tm := map (fun p => emission_tm well_width theta (fst p) (snd p)) (combine (al_E al) (al_TM_raw al)) in
  (al_E al, map (fun p => fst p + snd p) (combine te tm), te, tm).
