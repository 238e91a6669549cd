(** Model of [Custom_CPPB], solcore/absorption_calculator/cppm/Custom_CPPB.py:34-703, and of [Oscillator],
    solcore/absorption_calculator/dielectric_constant_models.py:325-336. *)
From Coq Require Import Reals Ascii String List Bool Arith ZArith.
From Coquelicot Require Import Complex.
From Verif Require Import Common PhysConst AdachiModel.
From Verif Require SchrodModel.
From Coq Require Import List.
Import ListNotations.
Open Scope R_scope.
Open Scope list_scope.

(** * Parameters of materials, lines 34-90 *)
(** For [contains], lines 59 and 65. *)
Inductive val := VNum (x : R) | VText (s : string).
(** For [read_line], lines 66-68. *)
Definition dict := list (string * val).
(** For [select], lines 80-90. *)
Fixpoint dget (k : string) (d : dict) : option val :=
  match d with [] => None | (a, v) :: r => if String.eqb a k then Some v else dget k r end.
(** For [read_line], lines 66-68. *)
Fixpoint dput (k : string) (v : val) (d : dict) : dict :=
  match d with [] => [(k, v)] | (a, w) :: r => if String.eqb a k then (a, v) :: r else (a, w) :: dput k v r end.
(** [sub in s] of Python, lines 59 and 65 *)
Fixpoint contains (sub s : string) : bool :=
  String.prefix sub s || match s with EmptyString => false | String _ r => contains sub r end.
(** Lines.split(" = "), line 66: the first piece and what follows the first separator *)
Fixpoint cut (s : string) : string * option string :=
  match s with
  | EmptyString => (EmptyString, None)
  | String c r =>
      if String.prefix " = " s then (EmptyString, Some match r with String _ (String _ t) => t | _ => EmptyString end)
      else let ab := cut r in (String c (fst ab), snd ab)
  end.
Section Params.
Context (float : string -> option R).
(** Lines 66-68 *)
Definition read_line (l : string) (p : dict) : res dict :=
  match snd (cut l) with
  | None => Err IndexError
  | Some r => match float (fst (cut r)) with Some v => Ok (dput (fst (cut l)) (VNum v) p) | None => Err ValueError end
  end.
(** Lines 51-68: [id] is ID, [found] is Found.  Simplified: the name of the material has no characters with a
    meaning in regular expressions. *)
Fixpoint scan (material : string) (ls : list string) (id found : bool) (p : dict) : res (dict * bool) :=
  match ls with
  | [] => Ok (p, found)
  | l :: r =>
      let here := String.eqb l (String.append "Material :: " material) in
      let id1 := (id || here) && negb (contains "$END$" l) in
      let! p1 := (if id1 && contains "=" l && negb (contains "$" l) then read_line l p else Ok p) in
      scan material r id1 (found || here) p1
  end.
(** Lines 80-90 *)
Fixpoint select (ks : list string) (p : dict) (acc : dict) : res dict :=
  match ks with
  | [] => Ok acc
  | k :: r => match dget k p with Some v => select r p (dput k v acc) | None => Err ValueError end
  end.
(** With [select], lines 80-90. *)
Definition material_params (file : list string) (material : string) (ks : list string) : res dict :=
  let! pf := scan material file false false [("Material"%string, VText material)] in
  if snd pf then (match ks with [] => Ok (fst pf) | _ => select ks (fst pf) [] end) else Err ValueError.
End Params.

(** * Oscillators *)
(** Line 110 *)
Definition broad (gamma alpha e0 E : R) : R := gamma * exp (-1 * alpha * ((E - e0) / gamma) ^ 2).
(** Lines 181, 250, 320, 388, 451, 481 *)
Definition absorptive (z : C) : C := (Re z, Rabs (Im z)).
(** With [absorptive], lines 181, 250, 320, 388, 451, 481. *)
Definition num (d : dict) (k : string) : res R :=
  match dget k d with Some (VNum x) => Ok x | Some (VText _) => Err TypeError | None => Err KeyError end.
Notation root := SchrodModel.np_csqrt.
(** With [absorptive], lines 181, 250, 320, 388, 451, 481. *)
Definition damped (E gamma : R) : C := (E, gamma).
Open Scope string_scope.
(** Lines 167-181.  Division by zero, which numpy turns into nan, is not modelled here and below. *)
Definition f_chi (chi : C) : C := (/ (chi * chi) * (2 - root (1 + chi) - root (1 - chi)))%C.
(** With [f_chi], lines 167-181. *)
Definition e0_val (e0 e0d a gamma E : R) : C :=
  (RtoC (a * / pow15 e0) * (f_chi (damped E gamma / RtoC e0) + RtoC (1 / 2 * pow15 (e0 / e0d)) * f_chi (damped E gamma / RtoC e0d)))%C.
(** With [f_chi], lines 167-181. *)
Definition osc_e0 (d : dict) (E : R) : res C :=
  let! g := num d "Gamma_E0" in let! al := num d "Alpha_E0" in let! e0 := num d "E0" in
  let! e0d := num d "E0_d0" in let! a := num d "A" in
  Ok (absorptive (e0_val e0 e0d a (broad g al e0 E) E)).
(** Lines 239-250 *)
Definition e1_term (b e gamma E : R) : C :=
  let chi := (damped E gamma / RtoC e)%C in (RtoC (-1 * b) * / (chi * chi) * clog (1 - chi * chi))%C.
(** With [e1_term], lines 239-250. *)
Definition osc_e1 (d : dict) (E : R) : res C :=
  let! g := num d "Gamma_E1" in let! al := num d "Alpha_E1" in let! e1 := num d "E1" in
  let! e1d := num d "E1_d1" in let! b1 := num d "B1" in let! b1s := num d "B1s" in
  let gm := broad g al e1 E in
  Ok (absorptive (e1_term b1 e1 gm E + e1_term b1s e1d gm E)%C).
(** Lines 307-320 *)
Definition eid_val (eg ec dd gamma E : R) : C :=
  let z := damped E gamma in
  (RtoC (2 * dd / PI) *
   (- (RtoC (eg * eg) / (z * z) * RtoC (ln (ec / eg)))
    + RtoC (1 / 2) * ((1 + RtoC eg / z) * (1 + RtoC eg / z)) * clog ((z + RtoC ec) / (z + RtoC eg))
    + RtoC (1 / 2) * ((1 - RtoC eg / z) * (1 - RtoC eg / z)) * clog ((z - RtoC ec) / (z - RtoC eg))))%C.
(** With [eid_val], lines 307-320. *)
Definition osc_eid (d : dict) (E : R) : res C :=
  let! g := num d "Gamma_Eg_ID" in let! al := num d "Alpha_Eg_ID" in let! eg := num d "Eg_ID" in
  let! ec := num d "Ec" in let! dd := num d "D" in
  Ok (absorptive (eid_val eg ec dd (broad g al eg E) E)).
(** Lines 377-388; int(n + 1) of a number that is not negative *)
Definition exciton_term (a g3 e0 gamma E : R) (j : nat) : C :=
  (RtoC (a / INR j ^ 3) * / ((e0 - g3 / INR j ^ 2 - E)%R, (- gamma)%R))%C.
(** With [exciton_term], lines 377-388. *)
Definition csum (l : list C) : C := fold_right Cplus (RtoC 0) l.
(** With [exciton_term], lines 377-388. *)
Definition int_of (x : R) : nat := Z.to_nat (up x - 1).
(** With [exciton_term], lines 377-388. *)
Definition osc_exciton (d : dict) (E : R) : res C :=
  let! g := num d "Gamma_Ex0" in let! al := num d "Alpha_Ex0" in let! e0 := num d "E0" in
  let! n := num d "n" in let! a := num d "A_Ex" in let! g3 := num d "G_3D" in
  Ok (absorptive (csum (map (exciton_term a g3 e0 (broad g al e0 E) E) (seq 1 (int_of (n + 1) - 1))))).
(** Lines 444-451 *)
Definition e2_val (e2 c gamma E : R) : C := (RtoC c / ((1 - (E / e2) ^ 2)%R, (- (E / e2 * gamma))%R))%C.
(** With [e2_val], lines 444-451. *)
Definition osc_e2 (d : dict) (E : R) : res C :=
  let! g := num d "Gamma_E2" in let! al := num d "Alpha_E2" in let! e2 := num d "E2" in let! c := num d "C" in
  Ok (absorptive (e2_val e2 c (broad g al e2 E) E)).
(** Lines 475-481 *)
Definition lorentz_val (e0 amp gamma E : R) : C := (RtoC (amp * e0) / ((e0 ^ 2 - E ^ 2)%R, (- (gamma * E))%R))%C.
(** With [lorentz_val], lines 475-481. *)
Definition osc_lorentz (d : dict) (E : R) : res C :=
  let! g := num d "Gamma" in let! al := num d "Alpha" in let! e0 := num d "E0" in let! amp := num d "Amp" in
  Ok (absorptive (lorentz_val e0 amp (broad g al e0 E) E)).
(** Lines 506-526; names of numbers below ten only *)
Definition numeral (n : nat) : string := String (ascii_of_nat (48 + n)) EmptyString.
(** With [numeral], lines 506-526. *)
Definition um : R := h * c / q * 1000000.
(** With [numeral], lines 506-526. *)
Fixpoint sellmeier_sum (d : dict) (E : R) (i terms : nat) : res R :=
  match terms with
  | O => Ok 0
  | S t =>
      let! a := num d (String.append "A" (numeral i)) in
      let! l := num d (String.append "L" (numeral i)) in
      let! s := sellmeier_sum d E (S i) t in
      Ok (a * (um / E) ^ 2 / ((um / E) ^ 2 - l ^ 2) + s)
  end.
(** With [numeral], lines 506-526. *)
Definition osc_sellmeier (d : dict) (E : R) : res C :=
  if Nat.odd (length d) then Err ValueError else
  let! s := sellmeier_sum d E 1 (length d / 2) in Ok (RtoC (s + 1)).

(** * Where the parameters come from, e.g. lines 134-163 *)
(** An oscillator (dielectric_constant_models.py:326-329): name, its dictionary of parameters, by reference,
    and the other arguments. *)
Record oscillator := mkOsc { oname : string; omat : option nat; oargs : dict }.
(** With [oscillator], dielectric_constant_models.py:326-329. *)
Definition put_all (args d : dict) : dict := fold_left (fun d kv => dput (fst kv) (snd kv) d) args d.
(** With [oscillator], dielectric_constant_models.py:326-329. *)
Fixpoint set_nth (i : nat) (x : dict) (l : list dict) : list dict :=
  match l, i with [], _ => [] | _ :: r, O => x :: r | a :: r, S j => a :: set_nth j x r end.
(** With [oscillator], dielectric_constant_models.py:326-329. *)
Definition resolve (heap : list dict) (mat : option nat) (args : dict) : res (dict * list dict) :=
  match mat, args with
  | None, [] => Err ValueError
  | None, _ => Ok (put_all args [], heap)
  | Some i, _ => let p := put_all args (nth i heap []) in Ok (p, set_nth i p heap)
  end.
(** The methods by name; [true] those that take the dictionary of parameters (for [component], lines 616-630). *)
Definition method (name : string) : option (bool * (dict -> R -> res C)) :=
  if String.eqb name "E0andE0_d0" then Some (true, osc_e0)
  else if String.eqb name "E1andE1_d1" then Some (true, osc_e1)
  else if String.eqb name "E_ID" then Some (true, osc_eid)
  else if String.eqb name "E0_Exciton" then Some (true, osc_exciton)
  else if String.eqb name "E2" then Some (true, osc_e2)
  else if String.eqb name "Lorentz" then Some (false, osc_lorentz)
  else if String.eqb name "Sellmeier" then Some (false, osc_sellmeier)
  else None.
(** For [component], lines 616-630. *)
Fixpoint each (f : R -> res C) (Es : list R) : res (list C) :=
  match Es with [] => Ok [] | E :: r => let! z := f E in let! zs := each f r in Ok (z :: zs) end.
(** A call by eps_calc, lines 616-630, for a list of energies that is not empty; other attributes of the object are no oscillators (TypeError, not
    distinguished from AttributeError). *)
Definition component (heap : list dict) (o : oscillator) (Es : list R) : res (list C * list dict) :=
  match method (oname o) with
  | None => Err AttributeError
  | Some (true, f) =>
      let! ph := resolve heap (omat o) (oargs o) in
      let! zs := each (f (fst ph)) Es in Ok (zs, snd ph)
  | Some (false, f) => let! zs := each (f (put_all (oargs o) [])) Es in Ok (zs, heap)
  end.
(** A direct call with the dictionary of parameters left out: only lines 112, 453 and 483 allow this. *)
Definition call_without (name : string) (args : dict) (Es : list R) : res (list C) :=
  match method name with
  | None => Err AttributeError
  | Some (true, f) =>
      if String.eqb name "E0andE0_d0" then let! ph := resolve [] None args in each (f (fst ph)) Es else Err TypeError
  | Some (false, f) => each (f (put_all args [])) Es
  end.
(** With [call_without], lines 112, 453 and 483. *)
Fixpoint components (heap : list dict) (os : list oscillator) (Es : list R) : res (list (list C) * list dict) :=
  match os with
  | [] => Ok ([], heap)
  | o :: r =>
      let! zh := component heap o Es in
      let! rh := components (snd zh) r Es in
      Ok (fst zh :: fst rh, snd rh)
  end.
(** Lines 633-641 *)
Definition eps_inf (heap : list dict) (os : list oscillator) : R :=
  match os with
  | [] => 0
  | o :: _ => match omat o with
              | Some i => match dget "eps1_inf" (nth i heap []) with Some (VNum x) => x | _ => 0 end
              | None => 0
              end
  end.
(** With [eps_inf], lines 633-641. *)
Fixpoint add_rows (rows : list (list C)) (n : nat) : list C :=
  match rows with
  | [] => repeat (RtoC 0) n
  | r :: rs => map (fun ab => (fst ab + snd ab)%C) (combine r (add_rows rs n))
  end.
(** eps_calc, lines 598-644, of at least one oscillator: total, components and the dictionaries afterwards *)
Definition eps_calc (heap : list dict) (os : list oscillator) (Es : list R) : res (list C * list (list C) * list dict) :=
  let! ch := components heap os Es in
  Ok (map (fun z => (z + RtoC (eps_inf (snd ch) os))%C) (add_rows (fst ch) (length Es)), fst ch, snd ch).
Close Scope string_scope.
(** Lines 659 and 687-690 *)
Definition k_func (z : C) : R := sqrt ((sqrt (Re z ^ 2 + Im z ^ 2) - Re z) / 2).
(** With [k_func], lines 659 and 687-690. *)
Definition n_func (z : C) : R := sqrt ((sqrt (Re z ^ 2 + Im z ^ 2) + Re z) / 2).
(** Line 660 *)
Definition alpha_func (E k : R) : R := 4 * PI / (h * c / (E * q)) * k.
(** alpha_calc, lines 646-669 *)
Definition alpha_calc (heap : list dict) (os : list oscillator) (Es : list R) : res (list R * list (list R)) :=
  let! r := eps_calc heap os Es in
  let al := fun zs => map (fun ez => alpha_func (fst ez) (k_func (snd ez))) (combine Es zs) in
  Ok (al (fst (fst r)), map al (snd (fst r))).
(** nk_calc, lines 671-703: n and k, without components *)
Definition nk_calc (heap : list dict) (os : list oscillator) (Es : list R) : res (list R * list R) :=
  let! r := eps_calc heap os Es in
  Ok (map n_func (fst (fst r)), map k_func (fst (fst r))).
