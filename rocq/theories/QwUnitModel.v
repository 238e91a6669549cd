(** Model of solcore/poisson_drift_diffusion/QWunit.py. Layers and materials are objects that may
    occur at several places: [heap] has their attributes, a structure has identities of layers and
    a layer the identity of its material. The Schrodinger solver, kp8x8_bulk, the strain shifts and
    scipy's erfc are parameters. Numbers are ideal reals, nan is [None]. *)
From Coq Require Import Reals String List Bool Arith.
From Verif Require Import Common PhysConst NpModel InterpModel DetBalModel.
From Coq Require Import List.
Import ListNotations.
Open Scope R_scope.
Open Scope list_scope.

(** The attributes of a material in use here; energies in J. The masses are in units of the electron
    mass until lines 177-179 replace them. [m_absorption] and those after it exist only once set;
    the optical constants are functions of the wavelength. *)
Record mat : Type := Mat
  { m_gap : R; m_affinity : R; m_vbo : R; m_me : R; m_mhh : R; m_mlh : R;
    m_n : R -> R; m_k : R -> R;
    m_Ncc : R; m_Nvhh : R; m_Nvlh : R; m_Nc : R; m_Nv : R; m_ni : R;
    m_absorption : option (list R); m_radiative : R }.
(** structure.py:65-79 and the attributes of lines 185-189 *)
Record layer : Type := Layer
  { l_width : R; l_material : nat; l_role : option string;
    l_gap : R; l_affinity : R; l_eff_gap : option R; l_eff_affinity : option R }.
(** With [layer], structure.py:65-79, lines 185-189. *)
Record heap : Type := Heap { layers : nat -> layer; mats : nat -> mat }.
(** With [layer], structure.py:65-79, lines 185-189. *)
Definition upd {A} (f : nat -> A) (i : nat) (x : A) : nat -> A := fun j => if Nat.eqb j i then x else f j.
(** With [layer], structure.py:65-79, lines 185-189. *)
Definition set_layer (h : heap) (i : nat) (l : layer) : heap := Heap (upd (layers h) i l) (mats h).
(** With [layer], structure.py:65-79, lines 185-189. *)
Definition set_mat (h : heap) (i : nat) (m : mat) : heap := Heap (layers h) (upd (mats h) i m).
(** structure.py:78 and lines 52, 53, 59, 61 *)
Definition with_role (r : string) (l : layer) : layer :=
  Layer (l_width l) (l_material l) (Some r) (l_gap l) (l_affinity l) (l_eff_gap l) (l_eff_affinity l).

(** * __init__, lines 41-77 *)
(** For [max_vb], QWunit.py, lines 159-160. *)
Record qw_unit : Type := Unit
  { u_layers : list nat; u_labels : list (option string); u_number : nat; u_width : R; u_T : R;
    u_repeat : option nat }.
(** The keyword arguments in use (for [max_vb], QWunit.py, lines 159-160). *)
Record keywords : Type := Keywords { kw_substrate : bool; kw_T : option R; kw_repeat : option nat }.
(** Line 56 *)
Definition is_well (r : option string) : bool :=
  match r with Some s => existsb (String.eqb s) ["well"; "qw"; "QW"; "Qw"; "Well"]%string | None => false end.
(** Lines 54-61, for the layers but the first and the last. *)
Fixpoint assign_roles (ids : list nat) (s : heap * nat * R) : heap * nat * R :=
  match ids with
  | [] => s
  | i :: r =>
      let h := fst (fst s) in
      let l := layers h i in
      if is_well (l_role l)
      then assign_roles r (set_layer h i (with_role "well" l), S (snd (fst s)), snd s + l_width l)
      else assign_roles r (set_layer h i (with_role "interlayer" l), snd (fst s), snd s)
  end.
(** The layers are changed also if the unit is refused for want of a substrate (by [with_role], structure.py:78, lines 52, 53, 59, 61, [assign_roles], QWunit.py, lines 54-61). *)
Definition qw_init (ids : list nat) (kw : keywords) (h : heap) : heap * res qw_unit :=
  if (length ids <? 3)%nat then (h, Err SystemExit)
  else
    let a := hd 0%nat ids in
    let b := last ids 0%nat in
    let h1 := set_layer h a (with_role "barrier" (layers h a)) in
    let h2 := set_layer h1 b (with_role "barrier" (layers h1 b)) in
    let s := assign_roles (removelast (tl ids)) (h2, 0%nat, 0) in
    let h3 := fst (fst s) in
    if kw_substrate kw
    then (h3, Ok (Unit ids (map (fun i => l_role (layers h3 i)) ids) (snd (fst s)) (snd s)
                       (match kw_T kw with Some t => t | None => 298 end) (kw_repeat kw)))
    else (h3, Err SystemExit).

(** * Averages, lines 111-149 *)
(** [a[i:j]] with [j] not negative (for [part], QWunit.py, lines 124-126, 144-146). *)
Definition slice (l : list R) (i j : nat) : list R := firstn (j - i) (skipn i l).
(** [ind[1] - 1] as the end of a slice: -1 is the last element. *)
Definition slice_end (n e : nat) : nat := match e with O => (n - 1)%nat | S e' => e' end.
(** The part of [x] and [y] taken for the layer between [a] and [b], lines 124-126, 144-146 *)
Definition part (x l : list R) (a b : R) : list R := slice l (searchsorted x a) (slice_end (length l) (searchsorted x b)).
(** get_average_params, lines 111-129: for the layers that begin at [a]; an empty part is an
    IndexError, one point is 0 / 0. *)
Fixpoint averages (x y : list R) (a : R) (widths : list R) : res (list (option R)) :=
  match widths with
  | [] => Ok []
  | w :: r =>
      let xx := part x x a (a + w) in
      match xx with
      | [] => Err IndexError
      | x0 :: _ =>
          let d := last xx 0 - x0 in
          let v := if Req_EM_T d 0 then None else Some (np_trapz (part x y a (a + w)) xx / d) in
          let! vs := averages x y (a + w) r in Ok (v :: vs)
      end
  end.
(** get_probability_per_layer, lines 131-149 *)
Fixpoint probabilities (x y : list R) (a : R) (widths : list R) : list R :=
  match widths with
  | [] => []
  | w :: r => np_trapz (part x y a (a + w)) (part x x a (a + w)) :: probabilities x y (a + w) r
  end.

(** The output of the Schrodinger solver in use (for [max_vb], QWunit.py, lines 159-160). *)
Record solution : Type := Solution
  { s_x : list R; s_Ve : list R; s_Vhh : list R; s_Vlh : list R;
    s_Ee : list R; s_Ehh : list R; s_Elh : list R;
    s_psi_e : list (list R); s_psi_hh : list (list R); s_psi_lh : list (list R);
    s_alpha : list R }.

Section Solver.
(** scipy.special.erfc; the band edges (conduction, heavy and light holes) and masses in kg of
    kp8x8_bulk on the substrate; the shifts (conduction, heavy and light holes) of
    strain_calculation_parameters. *)
Context (erfc : R -> R) (kp8x8 : mat -> (R * R * R) * (R * R * R)) (strain : mat -> R * R * R).

(** Lines 106-108, 181-183 *)
Definition dos (T m : R) : R := 2 * rpow (2 * PI * m * kb * T / h ^ 2) (3 / 2).

(** * RecalculateKP, lines 80-109: gap, affinity and the masses (the densities of states that are
    returned as well are not used) *)
(** For [set_masses], QWunit.py, lines 177-183. *)
Record kp_values : Type := KpValues { v_gap : R; v_affinity : R; v_me : R; v_mhh : R; v_mlh : R }.
(** For [solve], QWunit.py, lines 339-355. *)
Definition recalculate_kp (mode : string) (m : mat) : kp_values :=
  if String.eqb mode "kp8x8_bulk" then
    let e := fst (kp8x8 m) in
    let w := snd (kp8x8 m) in
    let cb := fst (fst e) in
    KpValues (cb - Rmax (snd (fst e)) (snd e)) (m_affinity m - cb + (m_vbo m + m_gap m)) (fst (fst w)) (snd (fst w)) (snd w)
  else
    let d := strain m in
    KpValues (m_gap m + fst (fst d) + Rmax (snd (fst d)) (snd d)) (m_affinity m - fst (fst d))
             (m_me m * electron_mass) (m_mhh m * electron_mass) (m_mlh m * electron_mass).

(** * RecalculateBandEdges, lines 151-188 *)
(** Lines 156-157 *)
Definition c_shift (e0 v : R) : R := (if Rlt_dec v e0 then e0 else v) - v.
(** Line 164 *)
Definition h_shift (e0 v : R) : R := (if Rlt_dec e0 v then e0 else v) - v.
(** Lines 159-160 *)
Definition max_vb (s : solution) : list R := map (fun p => if Rlt_dec (snd p) (fst p) then fst p else snd p) (combine (s_Vhh s) (s_Vlh s)).
(** With [max_vb], QWunit.py, lines 159-160. *)
Definition head (l : list R) : res R := match l with [] => Err IndexError | x :: _ => Ok x end.
(** Lines 177-183 *)
Definition set_masses (T : R) (v : kp_values) (m : mat) : mat :=
  Mat (m_gap m) (m_affinity m) (m_vbo m) (v_me v) (v_mhh v) (v_mlh v) (m_n m) (m_k m)
      (dos T (v_me v)) (dos T (v_mhh v)) (dos T (v_mlh v)) (m_Nc m) (m_Nv m) (m_ni m) (m_absorption m) (m_radiative m).
(** With [set_masses], QWunit.py, lines 177-183. *)
Definition opt2 (f : R -> R -> R) (a b : option R) : option R :=
  match a, b with Some x, Some y => Some (f x y) | _, _ => None end.
(** Lines 185-188 *)
Definition set_edges (v : kp_values) (se sh : option R) (l : layer) : layer :=
  Layer (l_width l) (l_material l) (l_role l) (v_gap v) (v_affinity v)
        (opt2 (fun e d => v_gap v + e - d) se sh) (option_map (fun e => v_affinity v - e) se).
(** One turn of the loop of lines 174-188. *)
Definition edge_step (T : R) (h : heap) (t : nat * (kp_values * (option R * option R))) : heap :=
  let v := fst (snd t) in
  let k := l_material (layers h (fst t)) in
  let h1 := set_mat h k (set_masses T v (mats h k)) in
  set_layer h1 (fst t) (set_edges v (fst (snd (snd t))) (snd (snd (snd t))) (layers h1 (fst t))).
(** With [edge_step], QWunit.py, lines 174-188. *)
Definition widths_of (u : qw_unit) (h : heap) : list R := map (fun i => l_width (layers h i)) (u_layers u).
(** With [edge_step], QWunit.py, lines 174-188. *)
Definition band_edges (u : qw_unit) (mode : string) (s : solution) (h : heap) : res heap :=
  let! e0 := head (s_Ee s) in
  let! hh0 := head (s_Ehh s) in
  let! lh0 := head (s_Elh s) in
  let! se := averages (s_x s) (map (c_shift e0) (s_Ve s)) 0 (widths_of u h) in
  let! sh := averages (s_x s) (map (h_shift (Rmax hh0 lh0)) (max_vb s)) 0 (widths_of u h) in
  let vs := map (fun i => recalculate_kp mode (mats h (l_material (layers h i)))) (u_layers u) in
  Ok (fold_left (edge_step (u_T u)) (combine (u_layers u) (combine vs (combine se sh))) h).

(** * RecalculateDensityOfStates, lines 191-254 *)
(** [sum of w * exp(-b * level) * probability] over the levels, lines 227-229, 241-246; line 229 has
    its weight after the sum. *)
Definition confined (b : R) (levels : list R) (probs : list (list R)) (index : nat) : R :=
  fold_left (fun a t => a + exp (- b * fst t) * nth index (snd t) 0) (combine levels probs) 0.
(** Lines 218-231 and 235-249 *)
Definition dos_e (b : R) (m : mat) (width vconf nqw : R) : R :=
  m_Ncc m * erfc (sqrt (Rmax 0 (b * vconf))) + 2 / width * rpow (m_Ncc m / 2) (2 / 3) * nqw.
(** With [dos_e], QWunit.py, lines 218-231 and 235-249. *)
Definition dos_h (b : R) (m : mat) (width vconf nhh nlh : R) : R :=
  (m_Nvhh m + m_Nvlh m) * erfc (sqrt (Rmax 0 (b * vconf)))
  + 2 / width * (rpow (m_Nvhh m / 2) (2 / 3) * nhh + rpow (m_Nvlh m / 2) (2 / 3) * nlh).
(** With [dos_e], QWunit.py, lines 218-231 and 235-249. *)
Definition set_dos (nc nv : R) (m : mat) : mat :=
  Mat (m_gap m) (m_affinity m) (m_vbo m) (m_me m) (m_mhh m) (m_mlh m) (m_n m) (m_k m)
      (m_Ncc m) (m_Nvhh m) (m_Nvlh m) nc nv (m_ni m) (m_absorption m) (m_radiative m).
(** Lines 337-344 (of solve): levels in eV. *)
Record levels : Type := Levels { lv_e : list R; lv_hh : list R; lv_lh : list R }.
(** With [levels], QWunit.py, lines 337-344. *)
Definition minimum (l : list R) : R := fold_left Rmin (tl l) (hd 0 l).
(** With [levels], QWunit.py, lines 337-344. *)
Definition maximum (l : list R) : R := fold_left Rmax (tl l) (hd 0 l).
(** With [levels], QWunit.py, lines 337-344. *)
Definition levels_of (s : solution) : levels :=
  Levels (map (fun e => (e - minimum (s_Ve s)) / q) (s_Ee s))
         (map (fun e => (maximum (s_Vhh s) - e) / q) (s_Ehh s))
         (map (fun e => (maximum (s_Vlh s) - e) / q) (s_Elh s)).
(** Lines 206-214 *)
Definition probs (s : solution) (widths : list R) (psi : list (list R)) : list (list R) :=
  map (fun p => probabilities (s_x s) (map (fun v => v ^ 2) p) 0 widths) psi.
(** One turn of the loop of lines 216-254. *)
Definition dos_step (u : qw_unit) (s : solution) (xb egb : R) (widths : list R) (h : heap) (t : nat * nat) : heap :=
  let l := layers h (snd t) in
  let m := mats h (l_material l) in
  let b := q / (kb * u_T u) in
  let lv := levels_of s in
  set_mat h (l_material l)
    (set_dos (dos_e b m (l_width l) (l_affinity l - xb) (confined b (lv_e lv) (probs s widths (s_psi_e s)) (fst t)))
             (dos_h b m (l_width l) (xb + egb - l_affinity l - l_gap l)
                    (confined b (lv_hh lv) (probs s widths (s_psi_hh s)) (fst t))
                    (confined b (lv_lh lv) (probs s widths (s_psi_lh s)) (fst t))) m).
(** With [dos_step], QWunit.py, lines 216-254. *)
Definition density_of_states (u : qw_unit) (s : solution) (h : heap) : heap :=
  let first := layers h (hd 0%nat (u_layers u)) in
  let final := layers h (last (u_layers u) 0%nat) in
  let xb := (l_affinity first + l_affinity final) / 2 in
  let egb := (l_gap first + l_gap final) / 2 in
  fold_left (dos_step u s xb egb (widths_of u h)) (combine (seq 0 (length (u_layers u))) (u_layers u)) h.

(** * CalculateAbsorption, lines 257-311 *)
(** material_system.py:420-421 *)
Definition alpha (m : mat) (wl : R) : R := 4 * PI * m_k m wl / wl.
(** [np.abs(wl - v).argmin()], line 270: the first of the nearest ones. *)
Fixpoint nearest_from (v : R) (i best : nat) (d : R) (l : list R) : nat :=
  match l with
  | [] => best
  | x :: r => if Rlt_dec (Rabs (x - v)) d then nearest_from v (S i) i (Rabs (x - v)) r else nearest_from v (S i) best d r
  end.
(** With [nearest_from], QWunit.py, line 270. *)
Definition nearest (l : list R) (v : R) : nat :=
  match l with [] => 0%nat | x :: r => nearest_from v 1 0 (Rabs (x - v)) r end.
(** create_adachi_alpha (adachi_alpha.py:24) asks for main_fraction of a string. *)
Definition adachi_of_string : res (list R) := Err AttributeError.
(** Lines 275-295 *)
Definition bulk_absorption (use_adachi : bool) (wl : list R) (m : mat) : list R :=
  if use_adachi then match adachi_of_string with Ok a => a | Err _ => map (alpha m) wl end else map (alpha m) wl.
(** [a[e:] = 0] *)
Definition zero_from (e : nat) (a : list R) : list R := firstn e a ++ map (fun _ => 0) (skipn e a).
(** Lines 298-309 *)
Definition layer_absorption (label : option string) (e : nat) (qw_width width : R) (confined a : list R) : list R :=
  match label with
  | Some "well"%string =>
      let b := zero_from e (map (fun v => v - nth e a 0) a) in
      let b := map (fun v => if Rlt_dec v 0 then 0 else v) b in
      map (fun p => fst p + snd p * width / qw_width) (combine b confined)
  | _ => zero_from e a
  end.
(** With [layer_absorption], QWunit.py, lines 298-309. *)
Definition set_absorption (a : list R) (m : mat) : mat :=
  Mat (m_gap m) (m_affinity m) (m_vbo m) (m_me m) (m_mhh m) (m_mlh m) (m_n m) (m_k m)
      (m_Ncc m) (m_Nvhh m) (m_Nvlh m) (m_Nc m) (m_Nv m) (m_ni m) (Some a) (m_radiative m).
(** With [layer_absorption], QWunit.py, lines 298-309. *)
Definition absorption_step (u : qw_unit) (use_adachi : bool) (s : solution) (wl : list R) (e : nat) (h : heap) (t : option string * nat) : heap :=
  let l := layers h (snd t) in
  let m := mats h (l_material l) in
  set_mat h (l_material l)
    (set_absorption (layer_absorption (fst t) e (u_width u) (l_width l) (s_alpha s) (bulk_absorption use_adachi wl m)) m).
(** Lines 269-270 *)
Definition edge_index (u : qw_unit) (wl : list R) (h : heap) : nat :=
  nearest wl (1240 / 10 ^ 9 / ((l_gap (layers h (hd 0%nat (u_layers u))) + l_gap (layers h (last (u_layers u) 0%nat))) / 2 / q)).
(** Line 311 is after the loop: what is added to zero is the absorption of the last layer. *)
Definition calculate_absorption (u : qw_unit) (use_adachi : bool) (s : solution) (wl : list R) (h : heap) : heap * option (list R) :=
  let h' := fold_left (absorption_step u use_adachi s wl (edge_index u wl h)) (combine (u_labels u) (u_layers u)) h in
  (h', m_absorption (mats h' (l_material (layers h' (last (u_layers u) 0%nat))))).

(** * solve, lines 314-355 *)
(** Line 325, without alpha_params: the energies for the Schrodinger solver. *)
Definition energies_of (wl : list R) : list R := map (fun w => 1240 / (w * 10 ^ 9) * q) wl.
(** Line 337, with alpha_params: the wavelengths. *)
Definition wavelengths_of (espace : list R) : list R := map (fun e => 1240 / (e * (1 / 10 ^ 9)) * q) espace.
(** Lines 339-355, given the solution of the Schrodinger equation. *)
Definition solve (u : qw_unit) (mode : string) (use_adachi with_absorption : bool) (s : solution) (wl : list R) (h : heap) : res (heap * option (list R)) :=
  let! h1 := band_edges u mode s h in
  let h2 := density_of_states u s h1 in
  Ok (if with_absorption then calculate_absorption u use_adachi s wl h2 else (h2, None)).

(** * GetEffectiveQW, lines 357-408 *)
(** Lines 380-384, one layer. Simplification: effective values that are nan are not followed any
    further; the code goes on with them. *)
Definition effective_step (T : R) (h : heap) (i : nat) : res heap :=
  let l := layers h i in
  let m := mats h (l_material l) in
  match l_eff_gap l, l_eff_affinity l with
  | Some g, Some a =>
      Ok (set_mat h (l_material l)
           (Mat g a (m_vbo m) (m_me m) (m_mhh m) (m_mlh m) (m_n m) (m_k m) (m_Ncc m) (m_Nvhh m) (m_Nvlh m) (m_Nc m) (m_Nv m)
                (sqrt (m_Nc m * m_Nv m * exp (- g / (kb * T)))) (m_absorption m) (m_radiative m)))
  | _, _ => Err ValueError
  end.
(** material_system.py:423-424 *)
Definition alphaE (m : mat) (E : R) : R := alpha m (PhysConst.h * c / E).
(** Lines 397-398 *)
Definition emission_rate (T : R) (m : mat) (E : R) : R :=
  1 / m_ni m ^ 2 * 2 * PI / (PhysConst.h ^ 3 * c ^ 2) * m_n m (1240 / 10 ^ 9 / (E / q)) ^ 2 * alphaE m E * exp (- E / (kb * T)) * E ^ 2.
(** Lines 387-404, one layer: width and material of the new layer. A material without absorption
    has no such parameter either (material_system.py:357-360). *)
Definition optical_step (T : R) (wl : list R) (i : nat) (s : heap * list (R * nat)) : res (heap * list (R * nat)) :=
  let hp := fst s in
  let l := layers hp i in
  let m := mats hp (l_material l) in
  match m_absorption m with
  | None => Err ValueError
  | Some a =>
      let kk := map (fun p => fst p * snd p / 4 / PI) (combine a wl) in
      let m1 := Mat (m_gap m) (m_affinity m) (m_vbo m) (m_me m) (m_mhh m) (m_mlh m) (m_n m) (scipy_interp wl kk 0 0)
                    (m_Ncc m) (m_Nvhh m) (m_Nvlh m) (m_Nc m) (m_Nv m) (m_ni m) (m_absorption m) (m_radiative m) in
      let es := map (fun w => 1240 / 10 ^ 9 / w * q) wl in
      let br := - np_trapz (map (emission_rate T m1) es) es in
      Ok (set_mat hp (l_material l)
            (Mat (m_gap m) (m_affinity m) (m_vbo m) (m_me m) (m_mhh m) (m_mlh m) (m_n m) (scipy_interp wl kk 0 0)
                 (m_Ncc m) (m_Nvhh m) (m_Nvlh m) (m_Nc m) (m_Nv m) (m_ni m) (m_absorption m) br),
          snd s ++ [(l_width l, l_material l)])
  end.
(** With [optical_step], QWunit.py, lines 387-404, material_system.py:357-360. *)
Fixpoint each {A S} (f : A -> S -> res S) (l : list A) (s : S) : res S :=
  match l with [] => Ok s | x :: r => let! s' := f x s in each f r s' end.
(** [repeat * new_QW], line 407; without the keyword there is no such attribute. *)
Definition effective (u : qw_unit) (mode : string) (use_adachi with_absorption : bool) (s : solution) (wl : list R) (h : heap)
  : res (heap * list (R * nat)) :=
  let! r := solve u mode use_adachi with_absorption s wl h in
  let! h1 := each (fun i h => effective_step (u_T u) h i) (u_layers u) (fst r) in
  let! o := each (optical_step (u_T u) wl) (u_layers u) (h1, []) in
  match u_repeat u with
  | None => Err AttributeError
  | Some n => Ok (fst o, concat (List.repeat (snd o) n))
  end.
End Solver.
