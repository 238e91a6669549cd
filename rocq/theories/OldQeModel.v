(** Model of solcore/analytic_solar_cells/QE.py:16-453 (the quantum efficiency of stacks of junctions after Nelson). *)
From Coq Require Import Reals String List Arith Bool.
From Verif Require Import Common PhysConst NumModel NpModel DetBalModel.
From Coq Require Import List.
Import ListNotations.
Open Scope R_scope.
Open Scope list_scope.

(** * The structure *)
(** What QE.py:142-143, 177-223, 248-250 read of a material: temperature, gap, relative permittivity,
    diffusion lengths and mobilities of electrons and holes, masses, doping and absorption
    coefficient as a function of the energy. (Simplification: every other attribute exists; only
    the doping may be missing.) *)
Record qmat : Type := QM { qm_T : R; qm_gap : R; qm_eps : R; qm_ln : R; qm_lp : R; qm_mue : R; qm_muh : R;
                           qm_mh : R; qm_me : R; qm_Na : option R; qm_Nd : option R; qm_alpha : R -> R }.
(** structure.py: a Layer with its width, role and material (for [junction], QE.py, lines 130-131, 186-211, 224-245). *)
Record qlayer : Type := QL { ql_width : R; ql_role : string; ql_mat : qmat }.
(** A Junction: its layers and the attributes that it may have (lines 130-131, 186-211, 224-245). *)
Record junction : Type := QJ { qj_layers : list qlayer; qj_sn : option R; qj_sp : option R; qj_es : option R;
                               qj_ln : option R; qj_lp : option R; qj_mup : option R; qj_mun : option R;
                               qj_Vbi : option R; qj_onesided : bool; qj_wn : option R; qj_wp : option R }.
(** Elements of a solar cell: a Layer, a Junction, anything else (lines 80, 85, 104). *)
Inductive element : Type := ELayer (l : qlayer) | EJunction (j : junction) | EOther.
(** A solar cell: its elements, [shading], and [reflectivity], a function of the energy (for [assign], QE.py, lines 144-148, 155-159, 165-169). *)
Record cell : Type := Cell { c_elements : list element; c_shading : option R; c_reflectivity : option (R -> R) }.
(** [x if not hasattr(...) else ...] (for [is_np], QE.py, lines 140-148). *)
Definition orelse (o : option R) (d : R) : R := match o with Some x => x | None => d end.

(** * calculate_junction_sr, lines 129-174: the regions *)
(** Lines 134-138: the index where the loop stops, the number of layers without emitter. *)
Fixpoint emitter_index (l : list qlayer) : nat :=
  match l with
  | [] => O
  | x :: r => if (ql_role x =? "emitter")%string then O else S (emitter_index r)
  end.
(** Lines 140-148: the emitter is of type n. *)
Definition is_np (m : qmat) : bool := if Rlt_dec (orelse (qm_Na m) 0) (orelse (qm_Nd m) 0) then true else false.
(** The regions: emitter of type n or not, n, i and p region (for [assign], QE.py, lines 144-148, 155-159, 165-169). *)
Record regions : Type := Regions { g_np : bool; g_n : qlayer; g_i : option qlayer; g_p : qlayer }.
(** Lines 144-148, 155-159, 165-169 *)
Definition assign (emitter : qlayer) (i : option qlayer) (base : qlayer) : regions :=
  if is_np (ql_mat emitter) then Regions true emitter i base else Regions false base i emitter.
(** Lines 134-174 *)
Definition find_regions (l : list qlayer) : res regions :=
  let idx := emitter_index l in
  match nth_error l idx, nth_error l (idx + 1) with
  | Some e, Some x =>
      if (ql_role x =? "intrinsic")%string then
        match nth_error l (idx + 2) with
        | None => Err IndexError
        | Some y => if (ql_role y =? "base")%string then Ok (assign e (Some x) y) else Err RuntimeError
        end
      else if (ql_role x =? "base")%string then Ok (assign e None x) else Err RuntimeError
  | _, _ => Err IndexError
  end.

(** * Lines 177-245: the parameters *)
(** For [parameters], QE.py, lines 130-131, 177-245. *)
Record pars : Type := Pars { r_T : R; r_xn : R; r_xp : R; r_xi : R; r_sn : R; r_sp : R; r_es : R; r_ln : R; r_lp : R;
                             r_dn : R; r_dp : R; r_ni2 : R; r_Na : R; r_Nd : R; r_V : R; r_Vbi : R; r_wn : R; r_wp : R }.
(** Lines 214-219 *)
Definition dos (mass T : R) : R :=
  let x := mass * electron_mass * kb * T / (2 * PI * hbar ^ 2) in 2 * (x * sqrt x).
(** Line 222-223: the doping, an AttributeError without it. *)
Definition attribute (o : option R) : res R := match o with Some x => Ok x | None => Err AttributeError end.
(** Lines 233-245: widths for the voltage [Vbi] over the junction. *)
Definition widths (j : junction) (es xi Na Nd Vbi : R) : R * R :=
  let (wn, wp) :=
    if qj_onesided j
    then (sqrt (2 * es * Vbi / (q * Nd)), sqrt (2 * es * Vbi / (q * Na)))
    else ((- xi + sqrt (xi ^ 2 + 2 * es * Vbi / q * (1 / Na + 1 / Nd))) / (1 + Nd / Na),
          (- xi + sqrt (xi ^ 2 + 2 * es * Vbi / q * (1 / Na + 1 / Nd))) / (1 + Na / Nd)) in
  (orelse (qj_wn j) wn, orelse (qj_wp j) wp).
(** material_system.py:354-355: the attribute [permittivity]. *)
Definition permittivity (m : qmat) : R := qm_eps m * vacuum_permittivity.
(** Lines 130-131, 177-245 *)
Definition parameters (j : junction) (g : regions) (V : R) : res pars :=
  let mn := ql_mat (g_n g) in let mp := ql_mat (g_p g) in
  let T := qm_T mn in
  let xi := match g_i g with Some l => ql_width l | None => 0 end in
  let es := orelse (qj_es j) (permittivity mn * vacuum_permittivity) in
  let ni2 := dos (qm_me mp) T * dos (qm_mh mn) T * exp (- qm_gap mn / (kb * T)) in
  let! Na := attribute (qm_Na mp) in
  let! Nd := attribute (qm_Nd mn) in
  let Vbi0 := orelse (qj_Vbi j) (kb * T / q * ln (Nd * Na / ni2)) in
  let V' := Rmin Vbi0 V in
  let Vbi := Vbi0 - V' in
  let w := widths j es xi Na Nd Vbi in
  Ok (Pars T (ql_width (g_n g)) (ql_width (g_p g)) xi (orelse (qj_sn j) 0) (orelse (qj_sp j) 0) es
           (orelse (qj_ln j) (qm_ln mp)) (orelse (qj_lp j) (qm_lp mn))
           (orelse (qj_mun j) (qm_muh mn) * kb * T / q) (orelse (qj_mup j) (qm_mue mp) * kb * T / q)
           ni2 Na Nd V' Vbi (fst w) (snd w)).

(** * Lines 413-453: currents of the neutral regions *)
(** Lines 415-418, 436-439 *)
Definition harg (x w l : R) : R := (x - w) / l.
(** With [harg], QE.py, lines 415-418, 436-439. *)
Definition lsod (l s d : R) : R := l * s / d.
(** Lines 423-426; the quotient is not finite if its denominator is zero. (Simplification: no
    other overflow.) *)
Definition j_top_light (x w l s d alpha bs : R) : option R :=
  let a := harg x w l in let k := lsod l s d in
  if Req_EM_T (alpha ^ 2 * l ^ 2 - 1) 0 then None
  else Some (q * bs * alpha * l / (alpha ^ 2 * l ^ 2 - 1)
             * ((k + alpha * l - exp (- alpha * (x - w)) * (k * cosh a + sinh a)) / (k * sinh a + cosh a)
                - alpha * l * exp (- alpha * (x - w)))).
(** Lines 445-448 *)
Definition j_bot_light (x w l s d alpha bs : R) : option R :=
  let a := harg x w l in let k := lsod l s d in
  if Req_EM_T (alpha ^ 2 * l ^ 2 - 1) 0 then None
  else Some (q * bs * alpha * l / (alpha ^ 2 * l ^ 2 - 1)
             * (l * alpha - (k * cosh a + sinh a - (k - l * alpha) * exp (- alpha * (x - w))) / (cosh a + k * sinh a))).
(** Lines 428-429, 450-451 *)
Definition J_dark (x w l s d V minority T : R) : R :=
  let a := harg x w l in let k := lsod l s d in
  q * d * minority / l * (exp (q * V / kb / T) - 1) * ((k * cosh a + sinh a) / (k * sinh a + cosh a)).

(** * Lines 248-324, 396-408 *)
(** The light at one energy: the energy, what reaches the element, the initial one and the
    factor [passive_loss]. (Simplification: one list of these for the arrays, which the code
    changes element by element.) (for [currents], QE.py, lines 248-292 and 309-320). *)
Record light : Type := Light { l_E : R; l_bs : R; l_b0 : R; l_pass : R }.
(** The currents at one energy (for [currents], QE.py, lines 248-292 and 309-320). *)
Record entry : Type := Entry { e_E : R; e_jn : R; e_jp : R; e_jgen : R; e_b0 : R }.
(** Lines 248-292 and 309-320 at one energy; none if a current is not finite. *)
Definition currents (g : regions) (p : pars) (l : light) : option entry :=
  let E := l_E l in let bs := l_bs l in
  let aN := qm_alpha (ql_mat (g_n g)) E in
  let aP := qm_alpha (ql_mat (g_p g)) E in
  let aI := match g_i g with Some x => qm_alpha (ql_mat x) E | None => 0 end in
  let xn := r_xn p in let xp := r_xp p in let xi := r_xi p in let wn := r_wn p in let wp := r_wp p in
  let absorbed := 1 - exp (- aI * xi - aN * wn - aP * wp) in
  if g_np g then
    match j_top_light xn wn (r_lp p) (r_sn p) (r_dn p) aN bs,
          j_bot_light xp wp (r_ln p) (r_sp p) (r_dp p) aP (bs * exp (- aN * xn - aP * wp - xi * aI)) with
    | Some t, Some b => Some (Entry E t b (q * (bs * exp (- aN * (xn - wn))) * absorbed) (l_b0 l))
    | _, _ => None
    end
  else
    match j_top_light xp wp (r_ln p) (r_sp p) (r_dp p) aP bs,
          j_bot_light xn wn (r_lp p) (r_sn p) (r_dn p) aN (bs * exp (- aP * xp - aN * wn - xi * aI)) with
    | Some t, Some b => Some (Entry E b t (q * (bs * exp (- aP * (xp - wp))) * absorbed) (l_b0 l))
    | _, _ => None
    end.
(** Lines 266-282, 287-292: dark currents of the n and p region. *)
Definition Jn_dark (p : pars) : R := J_dark (r_xn p) (r_wn p) (r_lp p) (r_sn p) (r_dn p) (r_V p) (r_ni2 p / r_Nd p) (r_T p).
(** With [Jn_dark], QE.py, lines 266-282, 287-292. *)
Definition Jp_dark (p : pars) : R := J_dark (r_xp p) (r_wp p) (r_ln p) (r_sp p) (r_dp p) (r_V p) (r_ni2 p / r_Na p) (r_T p).
(** A quotient, not finite for a denominator of zero (for [J_rec], QE.py, lines 296-301). *)
Definition quot (a b : R) : option R := if Req_EM_T b 0 then None else Some (a / b).
(** Lines 296-301 *)
Definition J_rec (p : pars) : option R :=
  let kbT := kb * r_T p in
  let taun := r_ln p ^ 2 / r_dn p in let taup := r_lp p ^ 2 / r_dp p in
  match quot (q * sqrt (r_ni2 p) * (r_wn p + r_wp p + r_xi p) / sqrt (taun * taup) * sinh (q * r_V p / (2 * kbT)))
             (q * r_Vbi p / kbT) with
  | Some x => Some (x * PI)
  | None => None
  end.
(** Lines 396-408; a quantum efficiency for no light is not a number. *)
Record output : Type := Output { o_e : list R; o_qe_n : list (option R); o_qe_p : list (option R); o_qe_scr : list (option R);
                                 o_qe_tot : list (option R); o_Jn : R; o_Jp : R; o_Jgen : R; o_Jn_dif : R; o_Jp_dif : R;
                                 o_Jrec : option R; o_J : option R }.
(** Lines 309-324: what is finite. *)
Fixpoint finite (l : list (option entry)) : list entry :=
  match l with [] => [] | Some x :: r => x :: finite r | None :: r => finite r end.
(** Lines 177-408 *)
Definition collect (g : regions) (p : pars) (ls : list light) : output :=
  let es := finite (map (currents g p) ls) in
  let x := map e_E es in
  let Jn := np_trapz (map e_jn es) x in
  let Jp := np_trapz (map e_jp es) x in
  let Jgen := np_trapz (map e_jgen es) x in
  Output x (map (fun e => quot (e_jn e / q) (e_b0 e)) es) (map (fun e => quot (e_jp e / q) (e_b0 e)) es)
         (map (fun e => quot (e_jgen e / q) (e_b0 e)) es)
         (map (fun e => quot ((e_jn e + e_jp e + e_jgen e) / q) (e_b0 e)) es)
         Jn Jp Jgen (Jn_dark p) (Jp_dark p) (J_rec p)
         (match J_rec p with Some r => Some (Jn + Jp + Jgen - r - Jn_dark p - Jp_dark p) | None => None end).
(** Lines 116-410 [calculate_junction_sr] (without printing) *)
Definition calculate_junction_sr (j : junction) (ls : list light) (V : R) : res output :=
  let! g := find_regions (qj_layers j) in
  let! p := parameters j g V in
  Ok (collect g p ls).

(** * spectral_response_all_junctions *)
(** Lines 81, 91, 102 *)
Definition transmission (x : qlayer) (E : R) : R := exp (- qm_alpha (ql_mat x) E * ql_width x).
(** Lines 81-82, 91-92 *)
Definition through_passive (x : qlayer) (l : light) : light :=
  Light (l_E l) (l_bs l * transmission x (l_E l)) (l_b0 l) (l_pass l * transmission x (l_E l)).
(** Line 102 *)
Definition through_active (x : qlayer) (l : light) : light :=
  Light (l_E l) (l_bs l * transmission x (l_E l)) (l_b0 l) (l_pass l).
(** Lines 88-95: the light behind the window layers. *)
Definition behind_window (j : junction) (ls : list light) : list light :=
  fold_left (fun a x => map (through_passive x) a) (firstn (emitter_index (qj_layers j)) (qj_layers j)) ls.
(** Lines 101-102 *)
Definition behind_junction (j : junction) (ls : list light) : list light :=
  fold_left (fun a x => map (through_active x) a) (skipn (emitter_index (qj_layers j)) (qj_layers j)) ls.
(** Lines 76-105 *)
Fixpoint walk (es : list element) (V : R) (ls : list light) : res (list output * list light) :=
  match es with
  | [] => Ok ([], ls)
  | ELayer x :: r => walk r V (map (through_passive x) ls)
  | EJunction j :: r =>
      let a := behind_window j ls in
      let! o := calculate_junction_sr j a V in
      let! rest := walk r V (behind_junction j a) in
      Ok (o :: fst rest, snd rest)
  | EOther :: _ => Err ValueError
  end.
(** Lines 45-56: energies and spectrum. *)
Definition incoming (incident : option (list R * list R)) (energy : option (list R)) : list (R * R) :=
  match energy, incident with
  | None, Some (x, y) => combine x y
  | None, None => map (fun e => (e * q, 1)) (linspace (5 / 10) (35 / 10) 450)
  | Some x, Some (a, b) => map (fun e => (e, np_interp a b e)) x
  | Some x, None => map (fun e => (e, 1)) x
  end.
(** Lines 58-70, 74: the light behind the front surface. *)
Definition entering (c : cell) (eb : R * R) : light :=
  let (E, b) := eb in
  Light E (b * (1 - orelse (c_shading c) 0) * (match c_reflectivity c with Some f => 1 - f E | None => 1 end)) b 1.
(** Lines 64-70 *)
Definition reflected (c : cell) (l : light) : R := match c_reflectivity c with Some f => f (l_E l) * l_b0 l | None => 0 end.
(** With [reflected], QE.py, lines 64-70. *)
Record response : Type := Response { s_junctions : list output; s_transmitted : list R; s_transmitted_fraction : list (option R);
                                     s_passive_loss : list R; s_reflected : list R; s_reflected_fraction : list (option R);
                                     s_e : list R }.
(** Lines 16-113 [spectral_response_all_junctions] *)
Definition spectral_response (c : cell) (incident : option (list R * list R)) (energy : option (list R)) (V : R) : res response :=
  let ls := map (entering c) (incoming incident energy) in
  let! w := walk (c_elements c) V ls in
  Ok (Response (fst w) (map l_bs (snd w)) (map (fun l => quot (l_bs l) (l_b0 l)) (snd w)) (map (fun l => 1 - l_pass l) (snd w))
               (map (reflected c) ls) (map (fun l => quot (reflected c l) (l_b0 l)) ls) (map l_E ls)).
