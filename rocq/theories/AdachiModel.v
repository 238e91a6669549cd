(** Model of solcore/absorption_calculator/adachi_alpha.py:7-147 ([create_adachi_alpha]). *)
From Coq Require Import Reals String List Arith Bool.
From Coquelicot Require Import Complex.
From Verif Require Import Common PhysConst NumModel DetBalModel EllModel.
From Verif Require SchrodModel.
From Coq Require Import List.
Import ListNotations.
Open Scope R_scope.
Open Scope list_scope.

(** * Lines 21-49: the parameters *)
(** A material: its name, the first element of its composition, its main fraction (for [alloy_args], adachi_alpha.py, lines 24-30). *)
Record adachi_material : Type := AMat { am_name : string; am_element : string; am_fraction : R }.
(** The parameters that the result depends on. (Simplification: the code adds 0j to all of them;
    they are real numbers here.) *)
Record adachi : Type := AP { p_e0 : R; p_e0d : R; p_e1 : R; p_e1d : R; p_e2 : R; p_eg : R;
                             p_a : R; p_c : R; p_gamma : R; p_d : R }.
Section Parameters.
(** [get_parameter(material, name, T=T, **alloy_args)]. *)
Context (get_parameter : string -> string -> R -> list (string * R) -> res R).
(** Lines 24-30 *)
Definition alloy_args (m : adachi_material) : list (string * R) :=
  if Req_EM_T (am_fraction m) 0 then [] else [(am_element m, am_fraction m)].
(** Lines 32-49, in order; B1, B11, Gamma and the lattice constant are read, but lines 53-56 and
    104 put constants in their place. *)
Definition parameters (m : adachi_material) (T : R) : res adachi :=
  let get k := get_parameter (am_name m) k T (alloy_args m) in
  let! e0 := get "E0"%string in
  let! e0d := get "E0plusD0"%string in
  let! e1 := get "E1"%string in
  let! e1d := get "E1plusD1"%string in
  let! e2 := get "E2"%string in
  let! eg := get "Eg1d"%string in
  let! a := get "A"%string in
  let! b1 := get "B1"%string in
  let! b11 := get "B11"%string in
  let! Gamma := get "Gamma"%string in
  let! cc := get "C"%string in
  let! gamma := get "gamma"%string in
  let! d := get "D"%string in
  let! a0 := get "lattice_constant"%string in
  Ok (AP e0 e0d e1 e1d e2 eg a cc gamma d).
End Parameters.

(** * Lines 53-134: the dielectric constant at the energy [E] in eV *)
(** Line 77 *)
Definition H (x : R) : R := if Rle_dec 0 x then 1 else 0.
(** Lines 53-56, 104 *)
Definition b1 : R := 7.
(** With [b1], adachi_alpha.py, lines 53-56, 104. *)
Definition b11 : R := 2 * b1.
(** With [b1], adachi_alpha.py, lines 53-56, 104. *)
Definition b2 : R := 0.
(** With [b1], adachi_alpha.py, lines 53-56, 104. *)
Definition Gamma : R := 6 / 100.
(** Lines 83-84; a root of a negative number is multiplied by zero. *)
Definition f_xi (x : R) : R := / (x * x) * (2 - sqrt (1 + x) - sqrt (1 - x) * H (1 - x)).
(** Lines 87-88 *)
Definition eps2_e0 (p : adachi) (E : R) : R :=
  p_a p / (E * E) * (sqrt (E - p_e0 p) * H (E / p_e0 p - 1)
                     + 1 / 2 * (sqrt (E - p_e0d p) * H (E / p_e0d p - 1))).
(** Line 89; [x ** 1.5] for the positive energies of a material. *)
Definition pow15 (x : R) : R := x * sqrt x.
(** With [pow15], adachi_alpha.py, line 89. *)
Definition eps1_e0 (p : adachi) (E : R) : R :=
  p_a p / pow15 (p_e0 p)
  * (f_xi (E / p_e0 p) + 1 / 2 * pow15 (p_e0 p / p_e0d p) * f_xi (E / p_e0d p)).
(** Lines 96-97 *)
Definition eps2_e1 (p : adachi) (E : R) : R :=
  let x := E / p_e1 p in
  let y := b1 - b11 * sqrt (p_e1 p - E) * H (1 - x) in
  PI * / (x * x) * y * H y.
(** [np.log] of a complex number (line 110). *)
Definition clog (z : C) : C := (ln (Cmod z), angle z).
(** Lines 105-111 *)
Definition eps1_3dcp (p : adachi) (E : R) : C :=
  let term (b e : R) : C :=
    let x := (((E, Gamma) : C) / RtoC e)%C in
    (RtoC b * / (x * x) * clog (1 - x * x))%C in
  (- term b1 (p_e1 p) - term b2 (p_e1d p))%C.
(** Lines 115-118 *)
Definition eps_e2_den (p : adachi) (E : R) : R :=
  let x := E / p_e2 p in (1 - x * x) * (1 - x * x) + (x * p_gamma p) * (x * p_gamma p).
(** With [eps_e2_den], adachi_alpha.py, lines 115-118. *)
Definition eps2_e2 (p : adachi) (E : R) : R :=
  p_c p * (E / p_e2 p) * p_gamma p / eps_e2_den p E * H (E - p_e1 p).
(** With [eps_e2_den], adachi_alpha.py, lines 115-118. *)
Definition eps1_e2 (p : adachi) (E : R) : R :=
  let x := E / p_e2 p in p_c p * (1 - x * x) / eps_e2_den p E.
(** Lines 45, 120-129; without phonons both terms are the same. *)
Definition eps2_indirect (p : adachi) (E : R) : R :=
  let t := p_d p / (E * E) * ((E - p_eg p) * (E - p_eg p)) * H (1 - p_eg p / E) * H (1 - E / p_e1 p) in
  t + t.
(** Lines 131, 134 (132 is overwritten). *)
Definition eps1 (p : adachi) (E : R) : C :=
  (RtoC (eps1_e0 p E) + eps1_3dcp p E + RtoC (eps1_e2 p E))%C.
(** With [eps1], adachi_alpha.py, lines 131, 134. *)
Definition eps2 (p : adachi) (E : R) : R :=
  eps2_e0 p E + eps2_e1 p E + eps2_e2 p E + eps2_indirect p E.

(** * Lines 136-147 *)
(** [np.sqrt] of a complex number (lines 137-138). *)
Notation csqrt := SchrodModel.np_csqrt.
(** Lines 137-138 *)
Definition half_root (p : adachi) (E : R) : C :=
  csqrt (eps1 p E * eps1 p E + RtoC (eps2 p E) * RtoC (eps2 p E))%C.
(** With [half_root], adachi_alpha.py, lines 137-138. *)
Definition k_of (p : adachi) (E : R) : R := Re (csqrt ((half_root p E - eps1 p E) / RtoC 2)%C).
(** With [half_root], adachi_alpha.py, lines 137-138. *)
Definition n_of (p : adachi) (E : R) : R := Re (csqrt ((half_root p E + eps1 p E) / RtoC 2)%C).
(** Lines 74, 136: the charge, and energies in J. *)
Definition charge : R := 16 / 10 ^ 20.
(** Lines 74, 139 *)
Definition alpha_of (p : adachi) (E : R) : R := 2 * (E * charge / hbar) / c * k_of p E.
(** Line 147 *)
Definition tiny : R := 1 / 10 ^ 10.
(** With [tiny], adachi_alpha.py, line 147. *)
Definition shown (x : R) : R := Rabs (x + tiny).
(** The four arrays (for [adachi_spectra], adachi_alpha.py, lines 69-72 and 136-147). *)
Record spectra : Type := Spectra { r_E : list R; r_n : list R; r_k : list R; r_alpha : list R }.
(** Lines 69-72 and 136-147, for [wl] or [Esteps]. *)
Definition adachi_spectra (p : adachi) (start stop : R) (num : nat) (wl : option (list R)) : spectra :=
  let E := match wl with
           | Some l => map (fun x => 1240 / 10 ^ 9 / x) (rev l)
           | None => linspace start stop num
           end in
  let back (l : list R) := match wl with Some _ => rev l | None => l end in
  Spectra (map (fun x => x * charge) E) (map shown (back (map (n_of p) E)))
          (map shown (back (map (k_of p) E))) (map shown (back (map (alpha_of p) E))).
(** adachi_alpha.py:7-147 [create_adachi_alpha] *)
Definition create_adachi_alpha (get_parameter : string -> string -> R -> list (string * R) -> res R)
    (m : adachi_material) (T start stop : R) (num : nat) (wl : option (list R)) : res spectra :=
  let! p := parameters get_parameter m T in
  Ok (adachi_spectra p start stop num wl).
