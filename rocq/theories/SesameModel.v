(** Model of [solcore/sesame_drift_diffusion/solve_pdd.py] (lines 46-351) and
    [solcore/sesame_drift_diffusion/process_structure.py] (lines 40-521), written
    P: and S: below.  The Sesame library itself ([Builder], [IVcurve]) is outside
    the model: it enters as a function from the voltages of one call to the
    currents (None is NaN) and the rows of the result arrays. *)
From Coq Require Import Reals ZArith String List Arith Bool.
From Verif Require Import Common NumModel InterpModel NpModel PhysConst.
Import ListNotations.
Open Scope R_scope.
Open Scope list_scope.

(** * numpy *)

(** Insertion of a keyed index, for [np.argsort] (for [argsort], S:123, 124, 168, 174). *)
Fixpoint insert_key (a : R * nat) (l : list (R * nat)) : list (R * nat) :=
  match l with
  | [] => [a]
  | x :: l' => if Rle_dec (fst a) (fst x) then a :: l else x :: insert_key a l'
  end.
(** [np.argsort(l)], S:123, 124, 168, 174, 194.  numpy's order of equal entries is
    unspecified; here it is the stable one. *)
Definition argsort (l : list R) : list nat :=
  map snd (fold_right insert_key [] (combine l (seq 0 (length l)))).
(** [l[idx]] with an index array, S:126, 127, 169, 176, 195-197. *)
Definition take {A} (d : A) (l : list A) (idx : list nat) : list A := map (fun i => nth i l d) idx.

(** [l[l < 0]], [l[l > 0]] tests and boolean masks, S:109-121. *)
Definition ltb0 (x : R) : bool := if Rlt_dec x 0 then true else false.
(** With [ltb0], S:109-121. *)
Definition gtb0 (x : R) : bool := if Rlt_dec 0 x then true else false.
(** With [ltb0], S:109-121. *)
Definition le_b (x y : R) : bool := if Rle_dec x y then true else false.
(** With [ltb0], S:109-121. *)
Definition lt_b (x y : R) : bool := if Rlt_dec x y then true else false.
(** With [ltb0], S:109-121. *)
Definition eqb0 (x : R) : bool := if Req_EM_T x 0 then true else false.

(** [np.unique]: sorted, without repetitions, P:392, 399, 455. *)
Fixpoint dedup (l : list R) : list R :=
  match l with
  | a :: ((b :: _) as l') => if Req_EM_T a b then dedup l' else a :: dedup l'
  | _ => l
  end.
(** With [dedup], P:392, 399. *)
Definition np_unique (l : list R) : list R := dedup (np_sort l).

(** Python's [int] of a float: truncation towards zero, P:329, 340, 348, 354, 373, 386. *)
Definition py_int (x : R) : Z := if Rle_dec 0 x then (up x - 1)%Z else (1 - up (- x))%Z.
(** [np.linspace(a, b, n, endpoint=e)]: ValueError for a negative number of points,
    [a] alone for one point, P:330-388. *)
Definition np_linspace (a b : R) (n : Z) (e : bool) : res (list R) :=
  if Z.ltb n 0 then Err ValueError
  else let m := Z.to_nat n in
       let div := INR (if e then m - 1 else m)%nat in
       Ok (map (fun i => if Nat.eqb i 0 then a else a + (b - a) * INR i / div) (seq 0 m)).

(** [np.gradient(f, x)] for one dimension, P:428: one-sided at the ends and the
    three-point formula for unequal spacings inside; fewer than two points raise
    ValueError. *)
Definition np_gradient (f x : list R) : res (list R) :=
  let n := length f in
  if Nat.ltb n 2 then Err ValueError
  else Ok (map (fun i =>
    if Nat.eqb i 0 then (at_ f 1 - at_ f 0) / (at_ x 1 - at_ x 0)
    else if Nat.eqb i (n - 1) then (at_ f (n - 1) - at_ f (n - 2)) / (at_ x (n - 1) - at_ x (n - 2))
    else let hs := at_ x i - at_ x (i - 1) in
         let hd := at_ x (i + 1) - at_ x i in
         (hs * hs * at_ f (i + 1) + (hd * hd - hs * hs) * at_ f i - hd * hd * at_ f (i - 1))
         / (hs * hd * (hd + hs))) (seq 0 n)).

(** * [iv_sesame], S:46-231 *)

(** [rho[nx - 1] < 0]: p-type at the back, S:97, 192 and P:474. *)
Definition p_at_back (rho : list R) : bool := lt_b (at_ rho (length rho - 1)) 0.

(** S:84: [min(junction.R_shunt, 1e14)], with 1e14 by default. *)
Definition sesame_Rsh (r : option R) : R :=
  match r with Some r => Rmin r (10 ^ 14) | None => 10 ^ 14 end.
(** S:86-89. *)
Definition max_voltage (max_Eg T : R) : R := max_Eg + 10 * (8617 / 10 ^ 8) * T.

(** [j * scaling.current * 1e4 + result_voltage / R_shunt], S:203-205, entry by entry;
    NaN stays NaN. *)
Definition shunted (scale Rsh : R) (vj : R * option R) : option R :=
  match snd vj with Some j => Some (j * scale * 10 ^ 4 + fst vj / Rsh) | None => None end.

(** The entries that are not NaN, S:207, 221-222. *)
Fixpoint non_nan (l : list (R * option R)) : list (R * R) :=
  match l with
  | [] => []
  | (v, Some j) :: l' => (v, j) :: non_nan l'
  | (_, None) :: l' => non_nan l'
  end.

(** [scipy.interpolate.interp1d(x, y, bounds_error=False, assume_sorted=True,
    fill_value=(lo, hi))] at one value, S:220-227.  scipy first writes the low fill
    value below [x[0]], then the high one above [x[-1]]; only the rest is
    interpolated. *)
Definition interp_fill (x y : list R) (lo hi v : R) : R :=
  if Rlt_dec (at_ x (length x - 1)) v then hi
  else if Rlt_dec v (at_ x 0) then lo
  else call_linear x y v.

Section IV.
Context {Row : Type} (row0 : Row).

(** One call of [sesame.solvers.IVcurve(sys, voltages)] (for [sweep], S:111-179). *)
Definition engine := list R -> list (option R) * list Row.

(** What [iv_sesame] leaves behind: the voltages of every [IVcurve] call in order,
    [result_voltage], [shunted_current], [junction.sesame_output] (one array of rows)
    and [junction.iv] (for [iv_sesame], S:81-227). *)
Record sesame_iv := { s_calls : list (list R); s_voltage : list R; s_current : list (option R);
                      s_result : list Row; s_iv : R -> R }.

(** The calls of the engine, S:111-179: final voltages in Sesame's sign, currents,
    result rows. *)
Definition sweep (ivc : engine) (vs : list R)
  : list (list R) * list R * list (option R) * list Row :=
  if existsb ltb0 vs then
    if existsb gtb0 vs then
      let neg := filter (fun v => le_b v 0) vs in
      let pos := filter (fun v => le_b 0 v) vs in
      let neg := take 0 neg (rev (argsort neg)) in
      let pos := take 0 pos (argsort pos) in
      let (jp, rp) := ivc pos in
      let (jn, rn) := ivc neg in
      let jn' := rev jn in
      let rn' := rev rn in
      let neg' := rev neg in
      if existsb eqb0 vs
      then ([pos; neg], removelast neg' ++ pos, removelast jn' ++ jp, removelast rn' ++ rp)
      else ([pos; neg], neg' ++ pos, jn' ++ jp, rn' ++ rp)
    else
      let final := take 0 vs (rev (argsort vs)) in
      let (j, r) := ivc final in ([final], final, j, r)
  else
    let final := take 0 vs (argsort vs) in
    let (j, r) := ivc final in ([final], final, j, r).

(** [iv_sesame] after the structure has been processed and the generation set,
    S:81-227.  The warnings, [junction.current] (the interpolator at the requested
    voltages) and [process_sesame_results] are not modelled. *)
Definition iv_sesame (ivc : engine) (rho : list R) (max_Eg T scale : R) (R_shunt : option R)
           (internal_voltages : list R) : res sesame_iv :=
  let Rsh := sesame_Rsh R_shunt in
  let np := p_at_back rho in
  let vs := if np then map Ropp internal_voltages else internal_voltages in
  let vs := filter (fun v => le_b v (max_voltage max_Eg T)) vs in
  let '(calls, final, j, r) := sweep ivc vs in
  let '(rv, j, r) :=
    if np then
      let rv := map Ropp final in
      let o := argsort rv in
      (take 0 rv o, take None j o, take row0 r o)
    else (final, j, r) in
  let cur := map (shunted scale Rsh) (combine rv j) in
  let nn := non_nan (combine rv cur) in
  match nn with
  | [] => Err UnboundLocalError
  | (_, first) :: _ =>
    let last := snd (List.last nn (0, 0)) in
    Ok {| s_calls := calls; s_voltage := rv; s_current := cur; s_result := r;
          s_iv := interp_fill (map fst nn) (map snd nn) first last |}
  end.
End IV.
Arguments sesame_iv : clear implicits.
Arguments engine : clear implicits.

(** * [qe_sesame], S:268-351 *)

(** One wavelength: index, guess from the previous one -> current and new solution. *)
Section QE.
Context {Sol : Type} (solve : nat -> option Sol -> R * Sol).

(** S:307-311: indices with enough absorption, in reverse order. *)
Definition wl_solve (A : list R) : list nat :=
  rev (filter (fun i => le_b (/ 10 ^ 5) (at_ A i)) (seq 0 (length A))).
(** The loop S:318-328; flux is 1e20 (S:299).  [eqe[i1] = abs(j) / (q * flux)]. *)
Fixpoint qe_loop (is : list nat) (guess : option Sol) (eqe : list R) (trace : list (nat * option Sol))
  : list R * list (nat * option Sol) :=
  match is with
  | [] => (eqe, trace)
  | i :: is' =>
    let (j, sol) := solve i guess in
    let eqe' := firstn i eqe ++ Rabs j / (q * 10 ^ 20) :: skipn (S i) eqe in
    qe_loop is' (Some sol) eqe' (trace ++ [(i, guess)])
  end.
(** S:301-338: external and internal quantum efficiencies at the wavelengths, and the
    calls made.  [A] is the absorptance of the junction per wavelength (S:273). *)
Definition qe_sesame (A : list R) (scale : R) : list R * list R * list (nat * option Sol) :=
  let '(eqe, trace) := qe_loop (wl_solve A) None (repeat 0 (length A)) [] in
  let eqe := map (fun e => e * scale) eqe in
  let iqe := map (fun p => if Rlt_dec 0 (snd p) then fst p / snd p else 0) (combine eqe A) in
  (eqe, iqe, trace).
End QE.

(** * [process_structure], P:40-187 *)

(** A layer: width in m, donor and acceptor density in m-3, optional doping profile
    (function of depth in m, result in m-3). *)
Record slayer := { l_width : R; l_Nd : R; l_Na : R; l_profile : option (R -> R) }.

(** P:54-66: doping in cm-3 as a function of depth in m. *)
Definition doping_fn (l : slayer) (x : R) : R :=
  match l_profile l with
  | Some f => f x / 10 ^ 6
  | None => if Rlt_dec (l_Na l) (l_Nd l) then l_Nd l / 10 ^ 6 else - l_Na l / 10 ^ 6
  end.

(** P:49, [layer.width * 1e2]. *)
Definition widths_cm (ls : list slayer) : list R := map (fun l => l_width l * 100) ls.

(** [edges[-1] = edges[-1] + 1e-10], P:80-82. *)
Fixpoint bump_last (l : list R) : list R :=
  match l with
  | [] => []
  | [x] => [x + / 10 ^ 10]
  | x :: l' => x :: bump_last l'
  end.
(** P:77-82. *)
Definition edges (w : list R) : list R := bump_last (prefix_sums 0 w).

(** [np.sign] (for [doping_signs], P:94-98). *)
Definition sign (x : R) : Z := if Rlt_dec 0 x then 1%Z else if Rlt_dec x 0 then (-1)%Z else 0%Z.
(** P:94-98, without a doping profile of the whole junction: the interfaces where the
    sign of the doping changes.  The sign of layer [i] is that of its doping function at
    [edges[i] / 100]. *)
Definition doping_signs (ls : list slayer) : list Z :=
  map (fun p => sign (doping_fn (fst p) (snd p / 100))) (combine ls (edges (widths_cm ls))).
(** With [doping_signs], P:94-98. *)
Fixpoint changes (i : nat) (l : list Z) : list nat :=
  match l with
  | a :: ((b :: _) as l') => if Z.eqb a b then changes (S i) l' else i :: changes (S i) l'
  | _ => []
  end.
(** With [doping_signs], P:94-98. *)
Definition junction_depth (ls : list slayer) : list R :=
  map (fun i => at_ (edges (widths_cm ls)) (i + 1)) (changes 0 (doping_signs ls)).

(** The mask [(mesh_cm >= edges[i]) & (mesh_cm < edges[i + 1])], P:117-120. *)
Definition in_layer (e : list R) (i : nat) (x : R) : bool := le_b (at_ e i) x && lt_b x (at_ e (i + 1)).
(** P:114-133 and again 149-170: the loop over the layers.  [mesh] (m) is [mesh_cm] / 100
    (P:404, 458; with a mesh of the user's, [mesh_cm] is 100 * [mesh], P:107). *)
Definition assign_layer (e : list R) (mesh_cm : list R) (dop : list R) (il : nat * slayer) : list R :=
  let (i, l) := il in
  map (fun p => if in_layer e i (fst p) then doping_fn l (fst p / 100 - at_ e i / 100) else snd p)
      (combine mesh_cm dop).
(** With [assign_layer], P:114-133, P:404, 458, P:107. *)
Definition doping_profile (ls : list slayer) (mesh_cm : list R) : list R :=
  let e := edges (widths_cm ls) in
  fold_left (assign_layer e mesh_cm) (combine (seq 0 (length ls)) ls) (repeat 0 (length mesh_cm)).

(** * [make_mesh], P:269-404 *)

(** The options in m; P:287-299 (and 416-424). *)
Definition min_spacing (opt : option R) (T : R) : R :=
  match opt with Some s => s * 100 | None => T / 10 ^ 4 end.
(** With [min_spacing], P:287-299. *)
Definition max_spacing (opt : option R) (T : R) : R :=
  match opt with Some s => s * 100 | None => T / 500 end.

(** [end_front], P:311-313. *)
Definition end_front (T : R) : R := Rmin (200 / 10 ^ 7 - / 10 ^ 10) T.
(** [end_dense], P:320-324, 365-369. *)
Definition end_dense (T d : R) : R := if Rlt_dec (d + T / 10) T then d + T / 10 else T.

(** [total] in cm is [np.sum(layer_width)] (P:287), [depths] the [junction_depth] array.
    0.1 * T and 0.2 * T are written T / 10 and T / 5. *)
Definition make_mesh (T : R) (opt_min opt_max : option R) (depths : list R) : res (list R) :=
  let ms := min_spacing opt_min T in
  let Ms := max_spacing opt_max T in
  if Req_EM_T Ms ms then arange 0 T Ms
  else
    let ef := end_front T in
    let! front := arange 0 ef (Rmin ms (/ 2 / 10 ^ 7)) in
    if Req_EM_T ef T then Err UnboundLocalError
    else match depths with
    | [] => Err IndexError
    | d :: _ =>
      let ed := end_dense T d in
      let include_end := if Req_EM_T ed T then true else false in
      if Rlt_dec d (T / 2) then
        let! mesh :=
          if Rlt_dec ef ed then
            let! m := np_linspace ef ed (py_int ((ed - ef) / ms)) include_end in Ok (front ++ m)
          else Ok front in
        if include_end then Ok mesh
        else let! rest := np_linspace ed T (py_int ((T - ed) / Ms)) true in Ok (mesh ++ rest)
      else
        let! dense_front := np_linspace ef (T / 5) (py_int ((T / 5 - ef) / ms)) false in
        let! bulk := np_linspace (T / 5) (d - T / 10) (py_int ((d - 3 * (T / 10)) / Ms)) false in
        let! dense := np_linspace (d - T / 10) ed (py_int ((ed - (d - T / 10)) / ms)) include_end in
        if include_end then Ok (np_unique (front ++ dense_front ++ bulk ++ dense))
        else let! rest := np_linspace ed T (py_int ((T - ed) / Ms)) true in
             Ok (np_unique (front ++ dense_front ++ bulk ++ dense ++ rest))
    end.

(** * [update_mesh], P:407-458 *)

(** P:430: indices where the relative change exceeds 1e-4.  With a constant doping the
    quotient is 0/0 = NaN, and no index is selected. *)
Definition doping_change (g : list R) : list nat :=
  let m := fold_right Rmax 0 (map Rabs g) in
  if Req_EM_T m 0 then []
  else filter (fun i => lt_b (/ 10 ^ 4) (Rabs (at_ g i) / m)) (seq 0 (length g)).

(** P:434-440: first and last index of every run of consecutive indices; IndexError
    when there is none (P:439). *)
Fixpoint runs_from (first prev : nat) (l : list nat) : list (nat * nat) :=
  match l with
  | [] => [(first, prev)]
  | i :: l' => if Nat.eqb i (S prev) then runs_from first i l' else (first, prev) :: runs_from i i l'
  end.
(** With [runs_from], P:434-440, P:439. *)
Definition runs (l : list nat) : res (list (nat * nat)) :=
  match l with [] => Err IndexError | i :: l' => Ok (runs_from i i l') end.

(** One pass of the loop, P:445-455. *)
Definition refine (ms : R) (mesh : list R) (ab : R * R) : res (list R) :=
  let (a, b) := ab in
  let! dense := arange a (b - / 10 ^ 12) ms in
  Ok (np_unique (filter (fun x => lt_b x a) mesh ++ dense ++ filter (fun x => le_b b x) mesh)).
(** With [refine], P:445-455. *)
Fixpoint refine_all (ms : R) (mesh : list R) (l : list (R * R)) : res (list R) :=
  match l with
  | [] => Ok mesh
  | ab :: l' => let! m := refine ms mesh ab in refine_all ms m l'
  end.
(** P:416-457. *)
Definition update_mesh (T : R) (opt_min : option R) (mesh rho : list R) : res (list R) :=
  let! g := np_gradient rho mesh in
  let! rs := runs (doping_change g) in
  refine_all (min_spacing opt_min T) mesh (map (fun p => (at_ mesh (fst p), at_ mesh (snd p))) rs).

(** * Surface recombination and material constants *)

(** Attributes of the junction; [None] is an absent one (for [get_srv], P:461-521). *)
Record srv_attr := { sn : option R; sp : option R; sn_e : option R; sn_h : option R;
                     sp_e : option R; sp_h : option R }.
(** [hasattr] chain P:481-515. *)
Definition srv (special general : option R) : R :=
  match special with Some s => s * 100 | None =>
  match general with Some s => s * 100 | None => 10 ^ 4 end end.
(** [get_srv], P:461-521: front electrons, front holes, back electrons, back holes. *)
Definition get_srv (rho : list R) (a : srv_attr) : R * R * R * R :=
  let Sn_e := srv (sn_e a) (sn a) in
  let Sp_e := srv (sp_e a) (sp a) in
  let Sn_h := srv (sn_h a) (sn a) in
  let Sp_h := srv (sp_h a) (sp a) in
  if p_at_back rho then (Sn_e, Sn_h, Sp_e, Sp_h) else (Sp_e, Sp_h, Sn_e, Sn_h).

(** [carrier_constants], P:251-266; [c] is "electron" or "hole".  [mat] gives the
    attributes of the material.  An unknown quantity returns Python's None and is not
    modelled. *)
Definition diffusion_length_of (mat : string -> res R) (c : string) : res R :=
  let! mu := mat (append c "_mobility") in
  let! tau := mat (append c "_minority_lifetime") in
  let! T := mat "T"%string in
  Ok (sqrt (kb * T * mu * tau / q)).
(** With [diffusion_length_of], P:251-266. *)
Definition lifetime_of (mat : string -> res R) (c : string) : res R :=
  let! mu := mat (append c "_mobility") in
  let! L := mat (append c "_diffusion_length") in
  let! T := mat "T"%string in
  Ok (q * L ^ 2 / (kb * T * mu)).

(** [try: ... except ValueError: ...] (for [get_material_parameters], P:189-249). *)
Definition on_value_error {A} (r : res A) (k : res A) : res A :=
  match r with Err ValueError => k | _ => r end.

(** [get_material_parameters], P:189-249: the dictionary as an association list, entries
    in the order of the source.  The look-ups of Python happen in the same order. *)
Definition get_material_parameters (mat : string -> res R) : res (list (string * R)) :=
  let! et := on_value_error (let! e := mat "bulk_recombination_energy"%string in Ok (e / q)) (Ok 0) in
  let! cn := on_value_error (let! e := mat "electron_auger_recombination"%string in Ok (e * 10 ^ 12)) (Ok 0) in
  let! cp := on_value_error (let! e := mat "hole_auger_recombination"%string in Ok (e * 10 ^ 12)) (Ok 0) in
  let! te := on_value_error (mat "electron_minority_lifetime"%string) (lifetime_of mat "electron") in
  let! th := on_value_error (mat "hole_minority_lifetime"%string) (lifetime_of mat "hole") in
  let! nc := mat "Nc"%string in
  let! nv := mat "Nv"%string in
  let! eg := mat "band_gap"%string in
  let! af := mat "electron_affinity"%string in
  let! ep := mat "relative_permittivity"%string in
  let! me := mat "electron_mobility"%string in
  let! mh := mat "hole_mobility"%string in
  let! b := mat "radiative_recombination"%string in
  Ok [("Nc", nc / 10 ^ 6); ("Nv", nv / 10 ^ 6); ("Eg", eg / q); ("affinity", af / q);
      ("epsilon", ep); ("mu_e", me * 10 ^ 4); ("mu_h", mh * 10 ^ 4); ("tau_e", te); ("tau_h", th);
      ("Et", et); ("B", b * 10 ^ 6); ("Cn", cn); ("Cp", cp)]%string.
