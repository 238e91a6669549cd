(** Model of the levels of quantum wells against the in-plane wave vector:
    solcore/quantum_mechanics/kp_QW.py:252-356 (holes), 417-437 (electrons), 440-555
    (band_sorting), 558-591, 622-625 (solve_bandstructure_QW), and the results for k = 0 of
    solcore/quantum_mechanics/high_level_kp_QW.py:54-64 (schrodinger, modes kp4x4 and
    kp6x6).  The sparse eigenvalue solver is the parameter of SchrodModel.v.  Plots and
    messages are left out. *)
From Coq Require Import Reals ZArith String List Bool.
From Coquelicot Require Import Coquelicot.
From Coq Require Import List.
From Verif Require Import Common PhysConst InterpModel NpModel TmmModel DetBalModel SchrodModel.
Import ListNotations.
Open Scope R_scope.
Open Scope list_scope.

(** * One block of the hole Hamiltonian *)

(** Rows 0, 2, 4, … and 1, 3, 5, … of an eigenvector, real parts; kp_QW.py:285-286, 295-296
    and 319-320, 327-328. *)
Fixpoint evens (v : list C) : list R :=
  match v with a :: _ :: v' => fst a :: evens v' | [a] => [fst a] | [] => [] end.
(** With [evens], kp_QW.py:285-286, 295-296 and 319-320, 327. *)
Definition odds (v : list C) : list R := evens (tl v).

(** A level before normalisation: energy in units of E0, the two components. *)
Record raw := Raw { w_e : R; w_a : list R; w_b : list R }.
(** For [solve_holes], kp_QW.py:252-356. *)
Definition to_raw (p : C * list C) : raw := Raw (fst (fst p)) (evens (snd p)) (odds (snd p)).

(** The limit of the energies, kp_QW.py:279, 288-289, 322-323; max of nothing raises. *)
Definition limit (potmax quasi : R) (out : list (C * list C)) : res C :=
  if Rlt_dec quasi 0 then match out with [] => Err ValueError | _ => Ok (cmax (map fst out)) end
  else Ok (RtoC potmax).
(** confined_levels, kp_QW.py:291-292, 325-326: positions below num[1] with an energy below
    the limit. *)
Definition confined (lim : C) (num1 : nat) (out : list (C * list C)) : list (C * list C) :=
  filter (fun p => cltc (fst p) lim) (firstn num1 out).

(** np.argsort of the energies and the reordering of the three arrays, kp_QW.py:293-296; equal
    energies are taken to keep their order (numpy does not promise it). *)
Fixpoint insert_raw (x : raw) (l : list raw) : list raw :=
  match l with
  | [] => [x]
  | y :: l' => if Rle_dec (w_e x) (w_e y) then x :: l else y :: insert_raw x l'
  end.
(** With [insert_raw], kp_QW.py:293-296. *)
Definition sort_raw (l : list raw) : list raw := fold_right insert_raw [] l.

(** np.sqrt(np.trapz(p * p, x=z)), kp_QW.py:298-299, 330-331, 492, 526 *)
Definition norm (z p : list R) : R := sqrt (np_trapz (map (fun a => a * a) p) z).
(** Lines 302-305 and the like: [t] is 0.01 times the largest norm of some component. *)
Definition scaled (t n : R) (p : list R) : list R :=
  if Rlt_dec t n then map (fun a => a / n) p else map (fun a => a * 0) p.

(** A level as returned: energy and components (for [normal_upper], kp_QW.py:298-312, lines 302 and 307). *)
Record level := Level { v_e : R; v_a : list R; v_b : list R }.
(** The upper block, kp_QW.py:298-312: both components are compared with the largest norm of
    the first (lines 302 and 307). *)
Definition normal_upper (z : list R) (off e0 : R) (l : list raw) : list level :=
  let t := 1 / 100 * list_max (map (fun x => norm z (w_a x)) l) in
  map (fun x => Level (off - w_e x * e0) (scaled t (norm z (w_a x)) (w_a x)) (scaled t (norm z (w_b x)) (w_b x))) l.
(** The lower block, kp_QW.py:330-343: each component with its own. *)
Definition normal_lower (z : list R) (off e0 : R) (l : list raw) : list level :=
  let ta := 1 / 100 * list_max (map (fun x => norm z (w_a x)) l) in
  let tb := 1 / 100 * list_max (map (fun x => norm z (w_b x)) l) in
  map (fun x => Level (off - w_e x * e0) (scaled ta (norm z (w_a x)) (w_a x)) (scaled tb (norm z (w_b x)) (w_b x))) l.

(** A structure as structure_to_potentials gives it, kp_QW.py:563-570. *)
Record well := Well { q_x : list R; q_Ve : list R; q_me : list R; q_Vhh : list R; q_Vlh : list R;
  q_g1 : list R; q_g2 : list R; q_g3 : list R }.
(** offset, kp_QW.py:261; the shifted potentials 262-263; sigma 275-276; potmax 279. *)
Definition offset (w : well) : R := Rmin (list_min (q_Vhh w)) (list_min (q_Vlh w)).
(** With [offset], kp_QW.py:261. *)
Definition shifted (w : well) (f : list R) : list R := map (fun v => (offset w - v) / E0 (q_x w)) f.
(** With [offset], kp_QW.py:261. *)
Definition sigma (w : well) : R := Rmin (list_min (shifted w (q_Vhh w))) (list_min (shifted w (q_Vlh w))).
(** With [offset], kp_QW.py:261. *)
Definition potmax (w : well) (quasi : R) : R :=
  Rmax (list_max (shifted w (q_Vhh w))) (list_max (shifted w (q_Vlh w))) + quasi * q / E0 (q_x w).
(** delta, kp_QW.py:256, and the matrices 282, 316. *)
Definition hole_matrix (w : well) (kt : R) (upper_block : bool) : matrix :=
  fill_hamiltonian (hole_coeffs kt (q_x w) (q_Vhh w) (q_Vlh w) (q_g1 w) (q_g2 w) (q_g3 w))
    ((at_ (q_x w) 1 - at_ (q_x w) 0) / list_max (q_x w)) upper_block.
(** solve_holes_QW_at_kt_4x4, kp_QW.py:252-356: the upper levels in the order of the energies
    and, unless the structure is said to be symmetric, the lower levels in the order of the
    solver. *)
Definition solve_holes (eigs : solver) (w : well) (kt : R) (num0 num1 : nat) (quasi : R) (symmetric : bool)
  : res (list level * option (list level)) :=
  let n := (2 * length (q_x w))%nat in
  let up := eigs (hole_matrix w kt true) n num0 (sigma w) in
  let! lu := limit (potmax w quasi) quasi up in
  let u := normal_upper (q_x w) (offset w) (E0 (q_x w)) (sort_raw (map to_raw (confined lu num1 up))) in
  if symmetric then Ok (u, None)
  else
    let lo := eigs (hole_matrix w kt false) n num0 (sigma w) in
    let! ll := limit (potmax w quasi) quasi lo in
    Ok (u, Some (normal_lower (q_x w) (offset w) (E0 (q_x w)) (map to_raw (confined ll num1 lo)))).

(** * Electrons *)

(** np.trapz(p * p.conjugate(), x=z), kp_QW.py:430: a real number. *)
Definition cnorm (z : list R) (p : list C) : R :=
  sqrt (np_trapz (map (fun a => fst a * fst a + snd a * snd a) p) z).
(** solve_electrons_QW_at_kt_parabolic with its wave functions, of which only the real parts
    are used later; kp_QW.py:417-437, 473. *)
Definition solve_electrons (eigs : solver) (w : well) (kt : R) (num0 num1 : nat) (quasi : R)
  : res (list (R * list R)) :=
  let z := q_x w in
  let out := eigs (par_matrix kt z (q_Ve w) (q_me w)) (length (q_Ve w)) num0 0 in
  let! lim := limit (list_max (par_fe z (q_Ve w)) + quasi * q / E0 z) quasi out in
  Ok (map (fun p => (fst (fst p) * E0 z + list_min (q_Ve w), map (fun a => fst a / cnorm z (snd p)) (snd p)))
        (confined lim num1 out)).

(** * band_sorting *)

(** An element of [bands]: kt and the dictionary of the levels (for [energies], kp_QW.py:466-483, 508-516). *)
Record kpoint := KPoint { k_kt : R; k_e : list (R * list R); k_u : list level; k_l : option (list level) }.
(** The arrays that are returned; an infinite energy is None (for [band_sorting], kp_QW.py:440-555). *)
Record sorted := Sorted { s_kt : list R; s_Ee : list (list (option R)); s_pe : list (list (list R));
  s_Ehh : list (list (option R)); s_phh : list (list (list R));
  s_Elh : list (list (option R)); s_plh : list (list (list R)); s_sym : bool }.

(** One column of the arrays, kp_QW.py:466-483, 508-516: level [j] at every k point, infinite
    and with a wave function of zeros where there is no such level. *)
Definition energies {A} (e : A -> R) (levels : kpoint -> list A) (bands : list kpoint) (j : nat) : list (option R) :=
  map (fun b => option_map e (nth_error (levels b) j)) bands.
(** With [energies], kp_QW.py:466-483, 508-516. *)
Definition waves {A} (p : A -> list R) (levels : kpoint -> list A) (nz : nat) (bands : list kpoint) (j : nat)
  : list (list R) :=
  map (fun b => match nth_error (levels b) j with Some x => p x | None => repeat 0 nz end) bands.
(** The lower levels of a k point; kp_QW.py:503, 512 read the key "E_L". *)
Definition lower_levels (b : kpoint) : list level := match k_l b with Some l => l | None => [] end.
(** norm > 0.5, kp_QW.py:492-494, 526-528 *)
Definition heavy (z p : list R) : bool := if Rlt_dec (1 / 2) (norm z p) then true else false.

(** The arrays of the electrons and of the levels with (or without) a heavy component at the
    first k point; upper levels use their first component, lower ones their second;
    kp_QW.py:488-499, 526-533. *)
Definition upper_of (z : list R) (b0 : kpoint) (kind : bool) : list nat :=
  filter (fun j => Bool.eqb (heavy z (nth j (map v_a (k_u b0)) [])) kind) (seq 0 (length (k_u b0))).
(** With [upper_of], kp_QW.py:488-499, 526. *)
Definition lower_of (z : list R) (b0 : kpoint) (kind : bool) : list nat :=
  filter (fun j => Bool.eqb (heavy z (nth j (map v_b (lower_levels b0)) [])) kind) (seq 0 (length (lower_levels b0))).
(** band_sorting, kp_QW.py:440-555, for levels on the mesh [z]. *)
Definition band_sorting (z : list R) (bands : list kpoint) (symmetric : bool) : res sorted :=
  match bands with
  | [] => Err IndexError
  | b0 :: _ =>
      if (negb symmetric && negb (forallb (fun b => match k_l b with Some _ => true | None => false end) bands))%bool
      then Err KeyError
      else
        let nz := length z in
        let lo kind := if symmetric then [] else lower_of z b0 kind in
        let js := seq 0 (length (k_e b0)) in
        Ok (Sorted (map k_kt bands)
          (map (energies fst k_e bands) js) (map (waves snd k_e nz bands) js)
          (map (energies v_e k_u bands) (upper_of z b0 true) ++ map (energies v_e lower_levels bands) (lo true))
          (map (waves v_a k_u nz bands) (upper_of z b0 true) ++ map (waves v_b lower_levels nz bands) (lo true))
          (map (energies v_e k_u bands) (upper_of z b0 false) ++ map (energies v_e lower_levels bands) (lo false))
          (map (waves v_b k_u nz bands) (upper_of z b0 false) ++ map (waves v_a lower_levels nz bands) (lo false))
          symmetric)
  end.

(** * solve_bandstructure_QW and schrodinger *)

(** One k point, kp_QW.py:573-576, 583-587 *)
Definition solve_kpoint (eigs : solver) (w : well) (kt : R) (num ne nh : nat) (qe qh : R) (symmetric : bool) : res kpoint :=
  let! e := solve_electrons eigs w kt num ne qe in
  let! h := solve_holes eigs w kt num nh qh symmetric in
  Ok (KPoint kt e (fst h) (snd h)).
(** solve_bandstructure_QW, kp_QW.py:558-591 *)
Definition solve_bandstructure (eigs : solver) (w : well) (num kpoints : nat) (krange quasi : R) (symmetric : bool)
  : res sorted :=
  let! b0 := solve_kpoint eigs w 0 num num num quasi quasi symmetric in
  let! bs := mapRR (fun kt => solve_kpoint eigs w kt num (length (k_e b0)) (length (k_u b0)) (- (1 / 10)) (1 / 10) symmetric)
               (tl (linspace 0 krange kpoints)) in
  band_sorting (q_x w) (b0 :: bs) symmetric.

(** bands[key][:, 0], high_level_kp_QW.py:62-63: the first k point; an array without rows has
    only one index. *)
Definition first_k {A} (rows : list (list A)) : res (list A) :=
  match rows with
  | [] => Err IndexError
  | _ => mapRR (fun r => match r with a :: _ => Ok a | [] => Err IndexError end) rows
  end.
(** The wave functions and energies of the result, high_level_kp_QW.py:62-63. *)
Record edge := Edge { d_pe : list (list R); d_phh : list (list R); d_plh : list (list R);
  d_Ee : list (option R); d_Ehh : list (option R); d_Elh : list (option R) }.
(** With [edge], high_level_kp_QW.py:62-63. *)
Definition band_edge (s : sorted) : res edge :=
  let! pe := first_k (s_pe s) in
  let! phh := first_k (s_phh s) in
  let! plh := first_k (s_plh s) in
  let! ee := first_k (s_Ee s) in
  let! ehh := first_k (s_Ehh s) in
  let! elh := first_k (s_Elh s) in
  Ok (Edge pe phh plh ee ehh elh).
(** schrodinger in the modes kp4x4 and kp6x6 once the potentials are known,
    high_level_kp_QW.py:44-45, 54-64: a field makes the structure asymmetric. *)
Definition schrodinger_kp (eigs : solver) (w : well) (num kpoints : nat) (krange quasi Efield : R) (symmetric : bool)
  : res (edge * sorted) :=
  let sym := if Req_EM_T Efield 0 then symmetric else false in
  let! s := solve_bandstructure eigs w num kpoints krange quasi sym in
  let! d := band_edge s in
  Ok (d, s).
