(** Model of solcore/optics/beer_lambert.py at one wavelength (every array operation of
    the source is elementwise in the wavelength). *)
From Coq Require Import Reals String List Arith Bool.
From Verif Require Import Common InterpModel.
Import ListNotations.
Open Scope R_scope.
Open Scope list_scope.

(** * calculate_absorption_beer_lambert, beer_lambert.py:180-219 *)
(** [np.cumsum([a] + l)], lines 184 and 190-192. *)
Fixpoint psums (a : R) (l : list R) : list R :=
  match l with [] => [a] | x :: r => a :: psums (a + x) r end.

(** An entry is (width, absorption coefficient). *)
Notation entry := (R * R)%type.
(** For [layer_index], beer_lambert.py, line 199-200. *)
Definition cum_widths (es : list entry) : list R := psums 0 (map fst es).
(** For [profile_at], beer_lambert.py, line 212. *)
Definition OD (es : list entry) : list R := psums 0 (map (fun e => snd e * fst e) es).
(** For [inside], beer_lambert.py, line 209. *)
Definition last_ (l : list R) : R := last l 0.

(** Line 199-200: [maximum(cum_widths.searchsorted(z) - 1, 0)]. *)
Definition layer_index (es : list entry) (z : R) : nat := searchsorted (cum_widths es) z - 1.
(** Line 212 for one depth; [alphas[loc]] outside the list is an IndexError. *)
Definition profile_at (es : list entry) (z : R) : res R :=
  let loc := layer_index es z in
  match nth_error es loc with
  | None => Err IndexError
  | Some (_, a) => Ok (a * exp (- at_ (OD es) loc - a * (z - at_ (cum_widths es) loc)))
  end.
(** Line 209: the number of depths inside the device. *)
Definition inside (es : list entry) (zs : list R) : nat :=
  length (filter (fun z => if Rlt_dec z (last_ (cum_widths es)) then true else false) zs).
(** Lines 197-214: the first [inside] depths are computed, the others stay zero. *)
Fixpoint mapR {A B} (f : A -> res B) (l : list A) : res (list B) :=
  match l with
  | [] => Ok []
  | x :: r => let! y := f x in let! ys := mapR f r in Ok (y :: ys)
  end.
(** With [mapR], beer_lambert.py, lines 197-214. *)
Definition diff_absorption (es : list entry) (fraction : R) (zs : list R) : res (list R) :=
  let n := inside es zs in
  let! out := mapR (profile_at es) (firstn n zs) in
  Ok (map (fun v => v * fraction) (out ++ repeat 0 (length zs - n))).
(** Lines 216-217. *)
Definition all_absorbed (es : list entry) (fraction : R) : R := (1 - exp (- last_ (OD es))) * fraction.
(** With [all_absorbed], beer_lambert.py, lines 216-217. *)
Definition transmitted (es : list entry) (fraction : R) : R := exp (- last_ (OD es)) * fraction.

(** * solve_beer_lambert, beer_lambert.py:13-172 *)
(** For [entries_of], beer_lambert.py, lines 48-139. *)
Inductive jkind := K2D | KDB | KOther.
(** The elements of a solar cell, with what the solver reads of each: the width and
    absorption of layers; for junctions the kind, whether jsc or eqe is present, the
    width attribute (set by prepare_solar_cell) and the absorptance at the wavelength (for [entries_of], beer_lambert.py, lines 48-139). *)
Inductive element :=
| ELayer (e : entry)
| ETunnel (l : list entry)
| EJunction (l : list entry) (k : jkind) (has_jsc_or_eqe : bool) (width absorptance : R).

(** The effective absorption coefficient of a junction without layers, lines 102-104
    and 121-123; a zero width is a ZeroDivisionError. *)
Definition alf (w A : R) : res R :=
  if Req_EM_T w 0 then Err ZeroDivisionError else Ok (- 1 / w * ln (Rmax (1 - A) (1 / 1000))).

(** What an element appends to [widths] and [alphas], lines 48-139. *)
Definition entries_of (x : element) : res (list entry) :=
  match x with
  | ELayer e => Ok [e]
  | ETunnel l => Ok l
  | EJunction l k known w A =>
      match k with
      | K2D => if known then Ok [(w, 0)] else let! a := alf w A in Ok [(w, a)]
      | KDB => let! a := alf w A in Ok [(w, a)]
      | KOther => Ok l
      end
  end.
(** What it appends to [n_layers_junction], lines 55, 60, 68. *)
Definition count_of (x : element) : nat :=
  match x with ELayer _ => 1%nat | ETunnel l => length l | EJunction l _ _ _ _ => length l end.

(** Lines 29-40: the light entering the cell. *)
Definition fraction_of (shading : R) (reflectivity : option R) : R :=
  1 * (1 - shading) * match reflectivity with Some r => 1 - r | None => 1 end.
(** With [fraction_of], beer_lambert.py, lines 29-40. *)
Definition reflected_of (reflectivity : option R) : R := match reflectivity with Some r => r | None => 0 end.

(** Lines 161-169 for one element: [k] entries from [off] on. *)
Fixpoint absorb_layers (es : list entry) (k off : nat) (I0 A : R) : res (R * R) :=
  match k with
  | O => Ok (A, I0)
  | S k' =>
      match nth_error es off with
      | None => Err IndexError
      | Some (w, a) =>
          let al := I0 * (1 - exp (- a * w)) in
          absorb_layers es k' (S off) (I0 - al) (A + al)
      end
  end.
(** Lines 156-169: the loop over the elements. *)
Fixpoint attribute (es : list entry) (counts : list nat) (off : nat) (I0 : R) : res (list R) :=
  match counts with
  | [] => Ok []
  | n :: r =>
      let! p := absorb_layers es n off I0 0 in
      let! rest := attribute es r (off + n) (snd p) in
      Ok (fst p :: rest)
  end.

(** For [solve_bl], beer_lambert.py, line 182. *)
Record bl_result := {
  r_reflected : R; r_transmitted : R; r_absorbed : R;
  r_layer : list R;                 (* layer_absorption of each element *)
  r_entries : list entry            (* what diff_absorption closes over *) }.

(** An empty list of entries makes [alphas[0]] (line 182) an IndexError. *)
Definition solve_bl (cell : list element) (shading : R) (reflectivity : option R) : res bl_result :=
  let f := fraction_of shading reflectivity in
  let! ess := mapR entries_of cell in
  let es := concat ess in
  match es with
  | [] => Err IndexError
  | _ :: _ =>
      let! la := attribute es (map count_of cell) 0 f in
      Ok {| r_reflected := reflected_of reflectivity; r_transmitted := transmitted es f;
            r_absorbed := all_absorbed es f; r_layer := la; r_entries := es |}
  end.

(** [absorbed], beer_lambert.py:175-177: the profile seen by one element. *)
Definition absorbed (es : list entry) (fraction offset width : R) (zs : list R) : res (list R) :=
  let! out := diff_absorption es fraction (map (fun z => offset + z) zs) in
  Ok (map (fun p => fst p * (if Rlt_dec (snd p) width then 1 else 0)) (combine out zs)).

(** The function stored as [solar_cell[j].alpha] (lines 82-85, 102-106, 121-125),
    evaluated after the loop: [layer_object] and [w] are the variables of the
    enclosing function, so they have their final values: the last element of the
    cell, and the width of the last junction of kind 2D or DB.  [absorptance_of] is
    the attribute of the last element (Layers and tunnel junctions have none).  The
    closure of a 2D junction with known photocurrent (line 82) reads neither. *)
Definition absorptance_of (x : element) : res R :=
  match x with
  | EJunction _ KDB _ _ A => Ok A
  | EJunction _ K2D false _ A => Ok A
  | _ => Err AttributeError
  end.
(** With [absorptance_of], beer_lambert.py, lines 82-85, 102-106, 121-125, line 82. *)
Definition optical_width (x : element) : option R :=
  match x with EJunction _ K2D _ w _ => Some w | EJunction _ KDB _ w _ => Some w | _ => None end.
(** With [absorptance_of], beer_lambert.py, lines 82-85, 102-106, 121-125, line 82. *)
Fixpoint last_width (cell : list element) (w : R) : R :=
  match cell with [] => w | x :: r => last_width r (match optical_width x with Some v => v | None => w end) end.
(** With [absorptance_of], beer_lambert.py, lines 82-85, 102-106, 121-125, line 82. *)
Definition stored_alpha (cell : list element) (j : nat) : res R :=
  match nth_error cell j with
  | Some (EJunction _ K2D true _ _) => Ok 0
  | Some (EJunction _ KDB _ w _) | Some (EJunction _ K2D false w _) =>
      let! A := absorptance_of (last cell (ELayer (0, 0))) in
      alf (last_width cell w) A
  | _ => Err AttributeError
  end.
