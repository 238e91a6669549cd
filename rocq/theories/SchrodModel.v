(** Model of the one-dimensional Schroedinger solvers:
    solcore/quantum_mechanics/potential_utilities.py:16-109 and
    solcore/quantum_mechanics/kp_QW.py:112-249, 369-437.
    The sparse eigenvalue solver (scipy eigs) is a parameter that is given the matrix, its
    size, the number of eigenvalues and the target energy, and returns pairs of eigenvalue
    and eigenvector. *)
From Coq Require Import Reals ZArith String List Bool.
From Coquelicot Require Import Coquelicot.
From Coq Require Import List.
From Verif Require Import Common PhysConst InterpModel NpModel.
Import ListNotations.
Open Scope R_scope.
Open Scope list_scope.

Notation matrix := (nat -> nat -> R).
Notation solver := (matrix -> nat -> nat -> R -> list (C * list C)).

(** scipy.sparse.dia_matrix((data, offsets), shape=(N, N)): entry [j] of the diagonal with
    offset [k] is in column [j], row [j - k]; potential_utilities.py:62, kp_QW.py:241, 412. *)
Definition dia (N : nat) (diags : list (Z * list R)) : matrix := fun i j =>
  if (Nat.ltb i N && Nat.ltb j N)%bool then
    fold_right (fun kd acc =>
      (if Z.eqb (Z.of_nat j - Z.of_nat i) (fst kd) then at_ (snd kd) j else 0) + acc) 0 diags
  else 0.
(** dia_matrix refuses repeated offsets (for [tridiag_euler], potential_utilities.py:16-79). *)
Fixpoint dup_offset (ks : list Z) : bool :=
  match ks with [] => false | k :: ks' => existsb (Z.eqb k) ks' || dup_offset ks' end.

(** np.gradient(z) for at least two points; potential_utilities.py:34, kp_QW.py:391. *)
Definition grad (z : list R) (i : nat) : R :=
  if Nat.eqb i 0 then at_ z 1 - at_ z 0
  else if Nat.eqb i (length z - 1) then at_ z i - at_ z (i - 1)
  else (at_ z (i + 1) - at_ z (i - 1)) / 2.

(** The padded masses m_a, m_b, m_c, potential_utilities.py:38-41, kp_QW.py:401-405. *)
Definition mass_a (m : list R) (j : nat) : R := at_ m (j - 1).
(** With [mass_a], potential_utilities.py:38-41, kp_QW.py:401. *)
Definition mass_b (m : list R) (j : nat) : R := at_ m j.
(** With [mass_a], potential_utilities.py:38-41, kp_QW.py:401. *)
Definition mass_c (m : list R) (j : nat) : R := if Nat.eqb j (length m - 1) then at_ m j else at_ m (j + 1).

(** axis, upper and lower, potential_utilities.py:44-46. *)
Definition axis (V z m : list R) : list R :=
  map (fun j => hbar ^ 2 / (4 * grad z j ^ 2) * (1 / mass_a m j + 2 / mass_b m j + 1 / mass_c m j) + at_ V j)
      (seq 0 (length V)).
(** With [axis], potential_utilities.py:44-46. *)
Definition upper (V z m : list R) : list R :=
  map (fun j => hbar ^ 2 / (4 * grad z j ^ 2) * (1 / mass_a m j + 1 / mass_b m j)) (seq 0 (length V)).
(** With [axis], potential_utilities.py:44-46. *)
Definition lower (V z m : list R) : list R :=
  map (fun j => hbar ^ 2 / (4 * grad z j ^ 2) * (1 / mass_b m j + 1 / mass_c m j)) (seq 0 (length V)).

(** The diagonals, potential_utilities.py:48-60. *)
Definition diagonals (V z m : list R) (periodic : bool) : list (Z * list R) :=
  let N := length V in
  let inner := [((-1)%Z, map Ropp (lower V z m)); (0%Z, axis V z m); (1%Z, map Ropp (upper V z m))] in
  if periodic then
    let top_right := repeat 0 (N - 1) ++ [- at_ (lower V z m) (N - 1)] in
    let bottom_left := (- at_ (upper V z m) 0) :: repeat 0 (N - 1) in
    [((- Z.of_nat N + 1)%Z, bottom_left)] ++ inner ++ [((Z.of_nat N - 1)%Z, top_right)]
  else inner.
(** The matrix, potential_utilities.py:62. *)
Definition hamiltonian (V z m : list R) (periodic : bool) : matrix := dia (length V) (diagonals V z m periodic).

(** Smallest and largest element (np.min, min, max) (for [tridiag_euler], potential_utilities.py:16-79). *)
Definition list_min (l : list R) : R := match l with [] => 0 | a :: l' => fold_left Rmin l' a end.
(** For [schroedinger_solve], potential_utilities.py:82-109. *)
Definition list_max (l : list R) : R := match l with [] => 0 | a :: l' => fold_left Rmax l' a end.

(** numpy orders complex numbers lexicographically; comparison with a real (for [tridiag_euler], potential_utilities.py:16-79). *)
Definition clt (e : C) (x : R) : bool :=
  if Rlt_dec (fst e) x then true
  else if Req_EM_T (fst e) x then (if Rlt_dec (snd e) 0 then true else false) else false.

(** numpy's square root of a complex number, with a non-negative imaginary part on the
    negative axis (for [tridiag_euler], potential_utilities.py:16-79). *)
Definition np_csqrt (z : C) : C :=
  (sqrt ((Cmod z + fst z) / 2), (if Rlt_dec (snd z) 0 then -1 else 1) * sqrt ((Cmod z - fst z) / 2)).
(** Normalisation of one vector, potential_utilities.py:75: the square root of the complex
    integral of p*p, then the real part. *)
Definition ctrapz (p : list C) (z : list R) : C := (np_trapz (map fst p) z, np_trapz (map snd p) z).
(** With [ctrapz], potential_utilities.py:75. *)
Definition normalise (p : list C) (z : list R) : list R :=
  let n := np_csqrt (ctrapz (map (fun a => a * a)%C p) z) in map (fun a => fst (a / n)%C) p.

(** sort_simultaneous(E, Psi), potential_utilities.py:10: a stable sort by energy; the
    result is unpacked into two names, which fails when there is nothing. *)
Fixpoint insert_key (e : R * list R) (l : list (R * list R)) : list (R * list R) :=
  match l with
  | [] => [e]
  | f :: l' => if Rle_dec (fst e) (fst f) then e :: l else f :: insert_key e l'
  end.
(** With [insert_key], potential_utilities.py:10. *)
Definition sort_key (l : list (R * list R)) : list (R * list R) := fold_right insert_key [] l.
(** With [insert_key], potential_utilities.py:10. *)
Definition sort_simultaneous (l : list (R * list R)) : res (list R * list (list R)) :=
  match l with
  | [] => Err ValueError
  | _ => Ok (map fst (sort_key l), map snd (sort_key l))
  end.

(** [tridiag_euler], potential_utilities.py:16-79.  [m] is the mass already multiplied by
    ones(N).  np.gradient needs two points; arrays of different lengths do not broadcast
    (a length-1 array would: not modelled). *)
Definition tridiag_euler (eigs : solver) (V z m : list R) (periodic : bool) (k : nat) (quasi : R)
  : res (list R * list (list R)) :=
  let N := length V in
  if (Nat.ltb (length z) 2 || negb (Nat.eqb (length z) N) || negb (Nat.eqb (length m) N))%bool then Err ValueError
  else if dup_offset (map fst (diagonals V z m periodic)) then Err ValueError
  else
    let out := eigs (hamiltonian V z m periodic) N k (list_min V) in
    let kept := filter (fun p => clt (fst p) (quasi * q)) out in
    sort_simultaneous (map (fun p => (fst (fst p), normalise (snd p) z)) kept).

(** [schroedinger_solve], potential_utilities.py:82-109. *)
Definition schroedinger_solve (eigs : solver) (x V m : list R) (k : nat) (periodic : bool)
  (offset : R) (electron : bool) (quasi : R) : res (list R * list (list R)) :=
  if electron then
    let v_shift := list_max V + offset in
    let! r := tridiag_euler eigs (map (fun v => v - v_shift) V) x m periodic k quasi in
    Ok (map (fun e => e + v_shift) (fst r), snd r)
  else
    let v_shift := list_min V - offset in
    let! r := tridiag_euler eigs (map (fun v => - v + v_shift) V) x m periodic k quasi in
    Ok (map (fun e => - e + v_shift) (fst r), snd r).

(** * The parabolic solver at in-plane wave vector kt *)

(** The normalised potential and the matrix of [solve_electrons_QW_at_kt_parabolic],
    kp_QW.py:389-415. *)
Definition E0 (z : list R) : R := hbar ^ 2 / (electron_mass * list_max z ^ 2).
(** With [E0], kp_QW.py:389-415. *)
Definition par_fe (z fe : list R) : list R := map (fun f => (f - list_min fe) / E0 z) fe.
(** With [E0], kp_QW.py:389-415. *)
Definition par_z (z : list R) : list R := map (fun x => x / list_max z) z.
(** With [E0], kp_QW.py:389-415. *)
Definition par_m (me : list R) : list R := map (fun x => x / electron_mass) me.
(** With [E0], kp_QW.py:389-415. *)
Definition par_matrix (kt : R) (z fe me : list R) : matrix :=
  let ktn := kt * list_max z in
  let m := par_m me in
  let s := fun j => 1 / 4 / grad (par_z z) j ^ 2 in
  let rows := seq 0 (length fe) in
  dia (length fe)
    [((-1)%Z, map (fun j => - (s j * (1 / mass_b m j + 1 / mass_c m j))) rows);
     (0%Z, map (fun j => s j * (1 / mass_a m j + 2 / mass_b m j + 1 / mass_c m j) + at_ (par_fe z fe) j +
                         1 / 2 * ktn ^ 2 / mass_b m j) rows);
     (1%Z, map (fun j => - (s j * (1 / mass_a m j + 1 / mass_b m j))) rows)].
(** The energies returned by [solve_electrons_QW_at_kt_parabolic], kp_QW.py:417-431: the
    solver's first num[1] eigenvalues below the top of the potential, in its order;
    the real part scaled back.  (The wave functions, divided by the norm of p conj(p),
    are not modelled.)  max(E) of an empty list raises ValueError. *)
Definition cmax (l : list C) : C :=
  match l with
  | [] => RtoC 0
  | a :: l' => fold_left (fun m e =>
      if Rlt_dec (fst m) (fst e) then e
      else if Req_EM_T (fst m) (fst e) then (if Rlt_dec (snd m) (snd e) then e else m) else m) l' a
  end.
(** With [cmax], kp_QW.py:417-431. *)
Definition cltc (e f : C) : bool :=
  if Rlt_dec (fst e) (fst f) then true
  else if Req_EM_T (fst e) (fst f) then (if Rlt_dec (snd e) (snd f) then true else false) else false.
(** With [cmax], kp_QW.py:417-431. *)
Definition parabolic (eigs : solver) (kt : R) (z fe me : list R) (num0 num1 : nat) (quasi : R) : res (list R) :=
  let out := map fst (eigs (par_matrix kt z fe me) (length fe) num0 0) in
  let! potmax := (if Rlt_dec quasi 0 then match out with [] => Err ValueError | _ => Ok (cmax out) end
                  else Ok (RtoC (list_max (par_fe z fe) + quasi * q / E0 z))) in
  Ok (map (fun e => fst e * E0 z + list_min fe) (filter (fun e => cltc e potmax) (firstn num1 out))).

(** * The coupled hole Hamiltonian, kp_QW.py:112-249 *)

(** Coefficients on the mesh (for [swap_AB], kp_QW.py:139-180 and 181). *)
Record coeffs := { cA1 : list R; cA2 : list R; cB1 : list R; cB2 : list R; cC : list R; cD : list R }.
(** The blocks "U" and "L" differ by the exchange of A and B, kp_QW.py:139-180 and 181-226. *)
Definition swap_AB (c : coeffs) : coeffs :=
  {| cA1 := cB1 c; cA2 := cB2 c; cB1 := cA1 c; cB2 := cA2 c; cC := cC c; cD := cD c |}.
(** The seven diagonals by row, kp_QW.py:117-128 and 139-180: [fill c d k] is the list of
    (column offset, value) of row [k].  Rows 2i belong to g1, rows 2i+1 to g2. *)
Definition fill_row (c : coeffs) (dl : R) (k : nat) : list (Z * R) :=
  let N := length (cA1 c) in
  let i := Nat.div2 k in
  let a l n := at_ (l c) n in
  let first := Nat.eqb i 0 in
  let last := Nat.eqb i (N - 1) in
  let dD := if first then a cD 1%nat - a cD 0%nat
            else if last then a cD (N - 1)%nat - a cD (N - 2)%nat
            else a cD (i + 1)%nat - a cD (i - 1)%nat in
  let low X := if last then (- 3 * a X (N - 1)%nat - a X (N - 2)%nat) / (4 * dl ^ 2)
               else (a X (i + 1)%nat - 4 * a X i - a X (i - 1)%nat) / (4 * dl ^ 2) in
  let up X := if first then - (a X 1%nat + 3 * a X 0%nat) / (4 * dl ^ 2)
              else - (a X (i + 1)%nat + 4 * a X i - a X (i - 1)%nat) / (4 * dl ^ 2) in
  if Nat.even k then
    (if first then [] else [((-2)%Z, low cA2); ((-1)%Z, a cD i / (2 * dl))]) ++
    [(0%Z, 2 * a cA2 i / dl ^ 2 + a cA1 i); (1%Z, a cC i - dD / (4 * dl))] ++
    (if last then [] else [(2%Z, up cA2); (3%Z, - a cD i / (2 * dl))])
  else
    (if first then [] else [((-3)%Z, - a cD i / (2 * dl)); ((-2)%Z, low cB2)]) ++
    [((-1)%Z, a cC i + dD / (4 * dl)); (0%Z, 2 * a cB2 i / dl ^ 2 + a cB1 i)] ++
    (if last then [] else [(1%Z, a cD i / (2 * dl)); (2%Z, up cB2)]).
(** The matrix; np.roll (228-233) moves the value of row [k] on the diagonal with offset
    [o] to position [k + o], which dia_matrix reads as row [k].  At least two mesh points
    are assumed (one point raises IndexError). *)
Definition fill_hamiltonian (c : coeffs) (dl : R) (upper_block : bool) : matrix := fun k j =>
  let c' := if upper_block then c else swap_AB c in
  if (Nat.ltb k (2 * length (cA1 c')) && Nat.ltb j (2 * length (cA1 c')))%bool then
    fold_right (fun ov acc => (if Z.eqb (Z.of_nat j - Z.of_nat k) (fst ov) then snd ov else 0) + acc) 0
      (fill_row c' dl k)
  else 0.
(** The coefficients of [solve_holes_QW_at_kt_4x4], kp_QW.py:252-275, on a mesh [z]. *)
Definition hole_coeffs (kt : R) (z fhh flh g1 g2 g3 : list R) : coeffs :=
  let L := list_max z in
  let off := Rmin (list_min fhh) (list_min flh) in
  let k := kt * L in
  let n := seq 0 (length z) in
  {| cA1 := map (fun i => / 2 * (at_ g1 i + at_ g2 i) * k ^ 2 + (off - at_ fhh i) / E0 z) n;
     cB1 := map (fun i => / 2 * (at_ g1 i - at_ g2 i) * k ^ 2 + (off - at_ flh i) / E0 z) n;
     cA2 := map (fun i => / 2 * (at_ g1 i - 2 * at_ g2 i)) n;
     cB2 := map (fun i => / 2 * (at_ g1 i + 2 * at_ g2 i)) n;
     cC := map (fun i => sqrt 3 / 2 * (/ 2) * (at_ g2 i + at_ g3 i) * k ^ 2) n;
     cD := map (fun i => sqrt 3 * at_ g3 i * k) n |}.
