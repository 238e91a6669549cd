(** Model of the absorption of one junction on its own,
    solcore/optics/beer_lambert.py:222-287. *)
From Coq Require Import Reals String List Arith Bool.
From Verif Require Import Common InterpModel NpModel DetBalModel BeerLambertModel.
Import ListNotations.
Open Scope R_scope.
Open Scope list_scope.

(** * calculate_absorptance_PDD_and_DA, beer_lambert.py:222-273 *)
(** Everything is elementwise in the wavelength; one wavelength is modelled.  A
    layer is (width, alpha); a layer lacking one of them re-raises (lines 225-234)
    and is not modelled. *)
(** [np.cumsum([0] + widths[:-1])], line 236. *)
Definition starts (es : list entry) : list R := psums 0 (map fst (removelast es)).
(** Lines 242-244: the loop stops before the last layer. *)
Definition depths (es : list entry) : list R := psums 0 (map (fun e => snd e * fst e) (removelast es)).
(** [widths[-1]] and [alphas[-1]]. *)
Definition back (es : list entry) : entry := last es (0, 0).
(** Lines 252-253. *)
Definition owner (es : list entry) (z : R) : nat := searchsorted (starts es) z - 1.
(** Line 259. *)
Definition too_far (es : list entry) (z : R) : R :=
  if Rlt_dec z (last_ (starts es) + fst (back es)) then 1 else 0.
(** Lines 265-267, one row. *)
Definition row (es : list entry) (z : R) : R :=
  let loc := owner es z in
  let a := snd (nth loc es (0, 0)) in
  a * exp (- at_ (depths es) loc - a * (z - at_ (starts es) loc)) * too_far es z.
(** Lines 249-269: the loop runs over [range(len(z) - 1)]. *)
Definition junction_rows (es : list entry) (fraction : R) (zs : list R) : list R :=
  let n := (length zs - 1)%nat in
  map (fun v => v * fraction) (map (row es) (firstn n zs) ++ repeat 0 (length zs - n)).
(** Line 271. *)
Definition junction_trans (es : list entry) : R := exp (- last_ (depths es) - snd (back es) * fst (back es)).
(** The pair returned, line 273; [alphas[0]] of an empty junction is an IndexError
    (line 242). *)
Definition absorptance_layers (es : list entry) (fraction : R) : res ((list R -> list R) * R) :=
  match es with
  | [] => Err IndexError
  | _ :: _ => Ok (junction_rows es fraction, junction_trans es)
  end.

(** * calculate_absorptance_DB, beer_lambert.py:276-287 *)
(** The junction afterwards, the function returned and the array returned with it.
    [fraction[0]] of an empty array is an IndexError, raised by the call on line 285. *)
Definition absorptance_flat (j : db_junction) (wl fraction : list R) : res (db_junction * (R -> R) * list R) :=
  let! j1 := absorptance_db j in
  let! A := attr (b_absorptance j1) in
  match fraction with
  | [] => Err IndexError
  | _ :: _ =>
      if Nat.eqb (length wl) (length fraction) then
        let f := fun x => A x * np_interp wl fraction x in
        Ok (j1, f, map f wl)
      else Err ValueError
  end.
