(** Model of [EllipsometryFitter], solcore/data_analysis_tools/ellipsometry_analysis.py:131-327, on a stack of
    layers with cached optical constants (absorption_calculator/transfer_matrix.py:20-51, 184-193, 323-345). *)
From Coq Require Import Reals String List Bool Arith.
From Verif Require Import Common NpModel EllDataModel.
From Verif Require StackModel.
From Coq Require Import List.
Import ListNotations.
Open Scope R_scope.
Open Scope list_scope.

(** A DielectricConstantModel: its offset, the attribute e_gap, which the class does not have
    (dielectric_constant_models.py:349-358), and the attributes of its oscillators. *)
Record dmodel := mkModel { e_inf : R; e_gap : option R; oscs : list (list (string * R)) }.
(** A layer of the stack (transfer_matrix.py:131-134): width, model ([None] is the empty list of layers with
    data, 331 and 393), the optical constants of these, and the cache of the function n_data.
    Left out: layers of data mixed with a model (366-391). *)
Section Fit.
Context {idx : Type} (nk : dmodel -> list R -> idx).
(** For [layer_places], lines 178-199, 208-225. *)
Record layer := mkLayer { width : R; mdl : option dmodel; raw : list R -> idx; cache : list (list R * idx) }.

(** The free variables of a layer, lines 143-164: names, or lists of names of an oscillator. *)
Inductive item := Name (s : string) | Names (l : list string).
(** Iterating over a text gives its characters, lines 195 and 222. *)
Fixpoint chars (s : string) : list string :=
  match s with EmptyString => [] | String c r => String c EmptyString :: chars r end.
(** What an item of a layer with index [i] stands for; the second number is the oscillator of the next list (for [layer_places], lines 178-199, 208-225). *)
Inductive place := PWidth (i : nat) | PEinf (i : nat) | PEgap (i : nat) | POsc (i m : nat) (name : string).
(** For [layer_places], lines 178-199, 208-225. *)
Definition item_places (i m : nat) (it : item) : list place * nat :=
  match it with
  | Name s =>
      if String.eqb s "width" then ([PWidth i], m)
      else if String.eqb s "e_inf" then ([PEinf i], m)
      else if String.eqb s "e_gap" then ([PEgap i], m)
      else (map (POsc i m) (chars s), S m)
  | Names l => (map (POsc i m) l, S m)
  end.
(** The order in which both loops (178-199, 208-225) visit the variables *)
Fixpoint layer_places (i m : nat) (its : list item) : list place :=
  match its with
  | [] => []
  | it :: r => fst (item_places i m it) ++ layer_places i (snd (item_places i m it)) r
  end.
(** With [layer_places], lines 178-199, 208-225. *)
Fixpoint places_from (i : nat) (vars : list (list item)) : list place :=
  match vars with
  | [] => []
  | its :: r => layer_places i 0 its ++ places_from (S i) r
  end.
(** With [layer_places], lines 178-199, 208-225. *)
Definition places (vars : list (list item)) : list place := places_from 0 vars.

(** For [read_place], lines 214-224. *)
Fixpoint oget (n : string) (o : list (string * R)) : option R :=
  match o with [] => None | (a, v) :: r => if String.eqb a n then Some v else oget n r end.
(** For [write_place], lines 184-197. *)
Fixpoint oput (n : string) (v : R) (o : list (string * R)) : list (string * R) :=
  match o with [] => [(n, v)] | (a, w) :: r => if String.eqb a n then (a, v) :: r else (a, w) :: oput n v r end.
(** For [write_place], lines 184-197. *)
Fixpoint set_at {A} (i : nat) (x : A) (l : list A) : list A :=
  match l, i with
  | [], _ => []
  | _ :: r, O => x :: r
  | a :: r, S j => a :: set_at j x r
  end.

(** Reading a variable, lines 214-224 *)
Definition read_place (st : list layer) (p : place) : res R :=
  match p with
  | PWidth i => match nth_error st i with Some l => Ok (width l) | None => Err IndexError end
  | PEinf i => match nth_error st i with
               | Some l => match mdl l with Some m => Ok (e_inf m) | None => Err AttributeError end
               | None => Err IndexError end
  | PEgap i => match nth_error st i with
               | Some l => match mdl l with Some m => match e_gap m with Some v => Ok v | None => Err AttributeError end | None => Err AttributeError end
               | None => Err IndexError end
  | POsc i k n => match nth_error st i with
                  | Some l => match mdl l with
                              | Some m => match nth_error (oscs m) k with
                                          | Some o => match oget n o with Some v => Ok v | None => Err KeyError end
                                          | None => Err IndexError end
                              | None => Err IndexError end
                  | None => Err IndexError end
  end.
(** With [read_place], lines 214-224. *)
Definition with_model (l : layer) (m : dmodel) : layer := mkLayer (width l) (Some m) (raw l) (cache l).
(** Writing one, lines 184-197: an attribute that is not there is made. *)
Definition write_place (st : list layer) (p : place) (v : R) : res (list layer) :=
  match p with
  | PWidth i => match nth_error st i with
                | Some l => Ok (set_at i (mkLayer v (mdl l) (raw l) (cache l)) st)
                | None => Err IndexError end
  | PEinf i => match nth_error st i with
               | Some l => match mdl l with Some m => Ok (set_at i (with_model l (mkModel v (e_gap m) (oscs m))) st) | None => Err AttributeError end
               | None => Err IndexError end
  | PEgap i => match nth_error st i with
               | Some l => match mdl l with Some m => Ok (set_at i (with_model l (mkModel (e_inf m) (Some v) (oscs m))) st) | None => Err AttributeError end
               | None => Err IndexError end
  | POsc i k n => match nth_error st i with
                  | Some l => match mdl l with
                              | Some m => match nth_error (oscs m) k with
                                          | Some o => Ok (set_at i (with_model l (mkModel (e_inf m) (e_gap m) (set_at k (oput n v o) (oscs m)))) st)
                                          | None => Err IndexError end
                              | None => Err IndexError end
                  | None => Err IndexError end
  end.
(** set_variables, lines 166-168 *)
Definition set_variables (st : list layer) (vars : list (list item)) : res (list (list item)) :=
  if Nat.eqb (length vars) (length st) then Ok vars else Err AssertionError.
(** get_variables, lines 201-227 *)
Fixpoint read_all (st : list layer) (ps : list place) : res (list R) :=
  match ps with
  | [] => Ok []
  | p :: r => let! v := read_place st p in let! vs := read_all st r in Ok (v :: vs)
  end.
(** With [read_all], lines 201-227. *)
Definition get_variables (st : list layer) (vars : list (list item)) : res (list R) := read_all st (places vars).
(** update_variables, lines 170-199; what was written before an exception stays. *)
Fixpoint write_all (st : list layer) (ps : list place) (v : list R) : list layer * option exn :=
  match ps, v with
  | [], _ => (st, None)
  | _ :: _, [] => (st, Some IndexError)
  | p :: r, x :: v' => match write_place st p x with
                       | Ok st1 => write_all st1 r v'
                       | Err e => (st, Some e)
                       end
  end.
(** With [write_all], lines 170-199. *)
Definition update_variables (st : list layer) (vars : list (list item)) (v : list R) : list layer * option exn :=
  write_all st (places vars) v.

(** The optical constants of a layer as they are now (for [indices], transfer_matrix.py:184, lines 35-45). *)
Definition current (l : layer) (wl : list R) : idx :=
  match mdl l with Some m => nk m wl | None => raw l wl end.
(** For [indices], transfer_matrix.py:184, lines 35-45. *)
Definition wl_dec : forall a b : list R, {a = b} + {a <> b} := list_eq_dec Req_EM_T.
(** get_indices asks the cached functions (transfer_matrix.py:184): lines 35-45 there *)
Definition indices (l : layer) (wl : list R) : idx * layer :=
  let vc := StackModel.cached wl_dec current l (cache l) wl in
  (fst vc, mkLayer (width l) (mdl l) (raw l) (snd vc)).
(** With [indices], transfer_matrix.py:184, lines 35-45. *)
Fixpoint stack_indices (st : list layer) (wl : list R) : list idx * list layer :=
  match st with
  | [] => ([], [])
  | l :: r => let a := indices l wl in let b := stack_indices r wl in (fst a :: fst b, snd a :: snd b)
  end.

(** [psi] and [Delta] of calculate_ellipsometry at an angle, of the optical constants and widths *)
Context (ellips : list idx -> list R -> R -> list R -> list R * list R).
(** Lines 265-273 for one angle, with the measured points by rows.  [None]: some divisor is zero. *)
Definition residual (range : list R) (m : list R * list R) (p : list R) : option R :=
  let wl := nth 0 p 0 * 1000 in
  let psi := nth 1 p 0 in
  let delta := nth 3 p 0 in
  if Req_EM_T psi 0 then None else
  if Req_EM_T (nth 4 p 0) 0 then None else
  Some (((psi - np_interp range (fst m) wl) / psi) ^ 2 + ((delta - np_interp range (snd m) wl) / nth 4 p 0) ^ 2).
(** With [residual], lines 265-273. *)
Fixpoint sum_opt (l : list (option R)) : option R :=
  match l with
  | [] => Some 0
  | None :: _ => None
  | Some a :: r => match sum_opt r with Some b => Some (a + b) | None => None end
  end.
(** With [residual], lines 265-273. *)
Definition angle_sum (e : ell) (range : list R) (mods : R -> list R * list R) (ang : R) : option R :=
  sum_opt (map (residual range (mods ang)) (rows_of ang (data e))).
(** With [residual], lines 265-273. *)
Definition elements (e : ell) : nat := fold_right Nat.add 0%nat (map (fun a => length (rows_of a (data e))) (angles e)).
(** Line 275.  [Ok None] is not a finite number. *)
Definition error_of (n num_var : nat) (s : option R) : res (option R) :=
  if Nat.eqb (2 * n) num_var then Err ZeroDivisionError else
  match s with
  | None => Ok None
  | Some s => let q := 1 / (2 * INR n - INR num_var) * s in if Rle_dec 0 q then Ok (Some (sqrt q)) else Ok None
  end.
(** mse, lines 239-277 *)
Definition mse (e : ell) (range : option (list R)) (vars : list (list item)) (st : list layer) (v : option (list R))
  : res (option R) * list layer :=
  match range with
  | None => (Err AssertionError, st)
  | Some rg =>
      let '(st1, x) := match v with Some v => update_variables st vars v | None => (st, None) end in
      match x with
      | Some err => (Err err, st1)
      | None =>
          let ind := stack_indices st1 rg in
          let mods := fun a => ellips (fst ind) (map width st1) a rg in
          (error_of (elements e) (match v with Some v => length v | None => 0%nat end) (sum_opt (map (angle_sum e rg mods) (angles e))),
           snd ind)
      end
  end.

(** fit, lines 279-298: the minimiser evaluates [mse] at some points and ends with one of its own.  An exception
    of [mse] would end the fit; this is left out. *)
Definition fit (e : ell) (range : option (list R)) (vars : list (list item)) (st : list layer) (tried : list (list R)) (x : list R)
  : list layer * option exn :=
  update_variables (fold_left (fun s v => snd (mse e range vars s (Some v))) tried st) vars x.
End Fit.

(** calculate_uncertainties, lines 319-327, from the inverse of the Hessian and the error *)
Definition errors (c : list (list R)) (m : R) : list R :=
  map (fun i => 1.65 * sqrt (m * nth i (nth i c []) 0)) (seq 0 (length c)).
(** With [errors], lines 319-327. *)
Definition correlation (c : list (list R)) (i j : nat) : R :=
  nth j (nth i c []) 0 / (sqrt (nth i (nth i c []) 0) * sqrt (nth j (nth j c []) 0)).
