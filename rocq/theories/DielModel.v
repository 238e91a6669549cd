(** Model of solcore/absorption_calculator/dielectric_constant_models.py and kramers_kronig.py.
    Numbers are real; a wavelength on a pole (division by zero) is outside the model. A single
    wavelength is an array of one element: the functions act on both in the same way. *)
From Coq Require Import Reals String List Arith Bool.
From Coquelicot Require Import Coquelicot.
From Verif Require Import Common InterpModel TmmModel RiiModel.
From Coq Require Import List.
Import ListNotations.
Open Scope R_scope.
Open Scope list_scope.

(** * kramers_kronig.py *)
(** Line 15, the integrand. *)
Definition kk_integrand (e2 : R -> R) (q w : R) : R := w * e2 w / (w ^ 2 - q ^ 2).
(** kramers_kronig.py:6-10 [Epsi1.__init__] and 12-33 [__call__] at one energy; [scipy.integrate.quad]
    is the integral. *)
Definition Epsi1 (e2 : R -> R) (mini maxi E : R) : R :=
  let eps := 1 / 100 in
  let lo := Rmax mini 0 in
  (RInt (kk_integrand e2 E) lo (E - eps) + RInt (kk_integrand e2 E) (E + eps) maxi) * (2 / PI).

(** * The oscillators *)
(** For [gauss_s], lines 145-147. *)
Inductive oscillator : Type :=
| Poles (A Ec : R)
| Lorentz (An En Brn : R)
| Gauss (A Ec Br : R)
| Drude (An Brn : R)
| Cauchy (An Bn Cn Ak Bk Ck : R)
| PolySegment (t : table1d).
(** The width and the imaginary part of lines 145-147. *)
Definition gauss_s (Br : R) : R := 1 / 2 * Br / sqrt (ln 2).
(** With [gauss_s], lines 145-147. *)
Definition gauss_e2 (A Ec Br xx : R) : R :=
  let s := gauss_s Br in
  A * (exp (- ((xx - Ec) / s) ^ 2) - exp (- ((xx + Ec) / s) ^ 2)).
(** [Epsi1(epsi2)] with the default limits 0 and 5, kramers_kronig.py:6. *)
Definition epsi1 (e2 : R -> R) (E : R) : R := Epsi1 e2 0 5 E.
(** The methods [dielectric] at one wavelength in nm, lines 39-48, 86-94, 137-154, 190-200 and
    248-261; [None] is nan. That of [PolySegment], lines 296-312: the function given to the
    integral ignores its argument. *)
Definition dielectric (o : oscillator) (x : R) : option C :=
  let x_eV := 1240 / x in
  match o with
  | Poles A Ec => Some (RtoC (A * Ec ^ 2 / (Ec ^ 2 - x_eV ^ 2)))
  | Lorentz An En Brn => Some (RtoC (An * En ^ 2) / ((En ^ 2 - x_eV ^ 2)%R, (- (Brn * x_eV))%R))%C
  | Gauss A Ec Br => Some (epsi1 (gauss_e2 A Ec Br) x_eV, gauss_e2 A Ec Br x_eV)
  | Drude An Brn => Some (RtoC (- An * Brn) / ((x_eV ^ 2)%R, (Brn * x_eV)%R))%C
  | Cauchy An Bn Cn Ak Bk Ck =>
      let x_um := x / 1000 in
      let N := An + Bn / x_um ^ 2 + Cn / x_um ^ 4 in
      let K := Ak * exp (Bk * (x_eV - Ck)) in
      Some ((N, K) * (N, K))%C
  | PolySegment t =>
      match call t [x_eV] with
      | Ok [Some v] => Some (epsi1 (fun _ => v) x_eV, v)
      | _ => None
      end
  end.
(** The same for an array: [PolySegment] hands an array to [quad], which refuses it, twice
    (kramers_kronig.py:17-28), unless it has one element. *)
Definition is_poly (o : oscillator) : bool := match o with PolySegment _ => true | _ => false end.
(** With [is_poly], kramers_kronig.py:17-28. *)
Definition dielectric_array (o : oscillator) (xs : list R) : res (list (option C)) :=
  if is_poly o && (1 <? length xs)%nat then Err ValueError else Ok (map (dielectric o) xs).

(** * DielectricConstantModel, lines 342-421 *)
(** For [construct], lines 29-37, 73-84, 124-135, 179-188, 230-246, 283. *)
Record model : Type := Model { e_inf : R; oscillators : list oscillator }.
(** Arguments of [add_oscillator] by name (for [construct], lines 29-37, 73-84, 124-135, 179-188, 230-246, 283). *)
Inductive arg : Type := Num (r : R) | Arr (l : list R).
(** For [construct], lines 29-37, 73-84, 124-135, 179-188, 230-246, 283. *)
Definition kwargs : Type := list (string * arg).
(** For [construct], lines 29-37, 73-84, 124-135, 179-188, 230-246, 283. *)
Definition get (k : string) (d : R) (kw : kwargs) : res R :=
  match find (fun p => String.eqb (fst p) k) kw with
  | None => Ok d
  | Some (_, Num r) => Ok r
  | Some (_, Arr _) => Err TypeError
  end.
(** For [construct], lines 29-37, 73-84, 124-135, 179-188, 230-246, 283. *)
Definition get_array (k : string) (kw : kwargs) : res (list R) :=
  match find (fun p => String.eqb (fst p) k) kw with
  | Some (_, Arr l) => Ok l
  | _ => Err TypeError
  end.
(** For [construct], lines 29-37, 73-84, 124-135, 179-188, 230-246, 283. *)
Definition only (ks : list string) (kw : kwargs) : bool := forallb (fun p => existsb (String.eqb (fst p)) ks) kw.
(** The constructors with their default values: lines 29-37, 73-84, 124-135, 179-188, 230-246, 283-294.
    An unknown argument is a TypeError. *)
Definition construct (name : string) (kw : kwargs) : res oscillator :=
  if String.eqb name "poles" then
    if only ["A"; "Ec"]%string kw then let! a := get "A" 0 kw in let! b := get "Ec" 5 kw in Ok (Poles a b) else Err TypeError
  else if String.eqb name "lorentz" then
    if only ["An"; "En"; "Brn"]%string kw then
      let! a := get "An" 0 kw in let! b := get "En" 2 kw in let! c := get "Brn" (1 / 10) kw in Ok (Lorentz a b c)
    else Err TypeError
  else if String.eqb name "drude" then
    if only ["An"; "Brn"]%string kw then let! a := get "An" 0 kw in let! b := get "Brn" (1 / 10) kw in Ok (Drude a b) else Err TypeError
  else if String.eqb name "cauchy" then
    if only ["An"; "Bn"; "Cn"; "Ak"; "Bk"; "Ck"]%string kw then
      let! a := get "An" 0 kw in let! b := get "Bn" 0 kw in let! c := get "Cn" 0 kw in
      let! d := get "Ak" 0 kw in let! e := get "Bk" 0 kw in let! f := get "Ck" 0 kw in Ok (Cauchy a b c d e f)
    else Err TypeError
  else if String.eqb name "gauss" then
    if only ["A"; "Ec"; "Br"]%string kw then
      let! a := get "A" 0 kw in let! b := get "Ec" 2 kw in let! c := get "Br" (1 / 10) kw in Ok (Gauss a b c)
    else Err TypeError
  else if String.eqb name "polysegment" then
    if only ["energy"; "e2"]%string kw then
      let! e := get_array "energy" kw in let! v := get_array "e2" kw in
      let! t := interp1d e v Linear false None in Ok (PolySegment t)
    else Err TypeError
  else Err AssertionError.
(** Lines 360-377 [add_oscillator]. *)
Definition add_oscillator (name : string) (kw : kwargs) (m : model) : res model :=
  let! o := construct name kw in Ok (Model (e_inf m) (oscillators m ++ [o])).
(** Lines 379-391 [remove_oscillator]; [answer] is what the user types. *)
Definition remove_oscillator (idx : nat) (answer : string) (m : model) : res model :=
  if (0 <? idx)%nat && (idx <=? length (oscillators m))%nat then
    if in_Yy answer then Ok (Model (e_inf m) (firstn (idx - 1) (oscillators m) ++ skipn idx (oscillators m))) else Ok m
  else Err AssertionError.
(** Lines 399-406: metres or nm. *)
Definition to_nm (xs : list R) : list R :=
  if existsb (fun x => if Rlt_dec x (1 / 1000) then true else false) xs then map (fun x => x * 10 ^ 9) xs else xs.
(** With [to_nm], lines 399-406. *)
Definition add_nan (a b : option C) : option C := match a, b with Some x, Some y => Some (x + y)%C | _, _ => None end.
(** With [to_nm], lines 399-406. *)
Fixpoint add_arrays (a b : list (option C)) : list (option C) :=
  match a, b with x :: a', y :: b' => add_nan x y :: add_arrays a' b' | _, _ => [] end.
(** With [to_nm], lines 399-406. *)
Fixpoint sum_models (acc : list (option C)) (os : list oscillator) (xs : list R) : res (list (option C)) :=
  match os with
  | [] => Ok acc
  | o :: r => let! d := dielectric_array o xs in sum_models (add_arrays acc d) r xs
  end.
(** Lines 393-412 [dielectric_constants]: with no oscillator the result is the number [e_inf],
    whatever the shape of the argument. *)
Definition dielectric_constants (m : model) (xs : list R) : res (list (option C)) :=
  let xs' := to_nm xs in
  match oscillators m with
  | [] => Ok [Some (RtoC (e_inf m))]
  | _ => sum_models (map (fun _ => Some (RtoC (e_inf m))) xs') (oscillators m) xs'
  end.
(** [numpy.sqrt] of a complex number, dielectric_constant_models.py:421. *)
Definition np_csqrt (z : C) : C :=
  (sqrt ((Cmod z + Re z) / 2), (if Rlt_dec (Im z) 0 then -1 else 1) * sqrt ((Cmod z - Re z) / 2)).
(** Lines 414-421 [n_and_k]: without an oscillator, and with poles only, the dielectric constant is
    a real number and [numpy.sqrt] of a negative one is nan. *)
Definition is_pole (o : oscillator) : bool := match o with Poles _ _ => true | _ => false end.
(** With [is_pole], lines 414-421. *)
Definition n_and_k (m : model) (xs : list R) : res (list (option C)) :=
  let! e := dielectric_constants m xs in
  Ok (map (fun z => match z with
                    | Some z => if forallb is_pole (oscillators m)
                                then match np_sqrt (Re z) with Some r => Some (RtoC r) | None => None end
                                else Some (np_csqrt z)
                    | None => None
                    end) e).
