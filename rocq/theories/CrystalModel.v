(** Model of solcore/crystals.py: k points of the Brillouin zone of cubic face-centred crystals. *)
From Coq Require Import Reals String List Bool Arith.
From Verif Require Import Common DetBalModel.
From Coq Require Import List.
Import ListNotations.
Open Scope R_scope.
Open Scope list_scope.

(** Arrays of three numbers (for [vnorm], crystals.py, line 87, line 50). *)
Definition vec : Type := (R * R * R)%type.
(** For [vnorm], crystals.py, line 87, line 50. *)
Definition vx (v : vec) : R := fst (fst v).
(** For [vnorm], crystals.py, line 87, line 50. *)
Definition vy (v : vec) : R := snd (fst v).
(** For [vnorm], crystals.py, line 87, line 50. *)
Definition vz (v : vec) : R := snd v.
(** For [critical_point], crystals.py, lines 17-25. *)
Definition vscale (k : R) (v : vec) : vec := (k * vx v, k * vy v, k * vz v).
(** For [walk_step], crystals.py, lines 55-60, lines 48-51. *)
Definition vadd (u v : vec) : vec := (vx u + vx v, vy u + vy v, vz u + vz v).
(** For [walk_step], crystals.py, lines 55-60, lines 48-51. *)
Definition vsub (u v : vec) : vec := (vx u - vx v, vy u - vy v, vz u - vz v).
(** For [vnorm], crystals.py, line 87, line 50. *)
Definition vdot (u v : vec) : R := vx u * vx v + vy u * vy v + vz u * vz v.
(** [np.linalg.norm], line 87, and [np.sqrt(sum(l_vec * l_vec))], line 50 *)
Definition vnorm (v : vec) : R := sqrt (vdot v v).

(** brillouin_critical_points, lines 17-25 *)
Definition critical_point (a : R) (name : string) : res vec :=
  if String.eqb name "Gamma" then Ok (0, 0, 0)
  else if String.eqb name "X" then Ok (vscale (PI / a) (0, 2, 0))
  else if String.eqb name "W" then Ok (vscale (PI / a) (1, 2, 0))
  else if String.eqb name "L" then Ok (vscale (PI / a) (1, 1, 1))
  else if String.eqb name "U" then Ok (vscale (PI / a) (1 / 2, 2, 1 / 2))
  else if String.eqb name "K" then Ok (vscale (PI / a) (3 / 2, 3 / 2, 0))
  else Err KeyError.
(** label_map, lines 7-14 (the same names) *)
Definition label_of (name : string) : res string :=
  if String.eqb name "Gamma" then Ok "$\Gamma$"%string
  else if existsb (String.eqb name) ["X"; "K"; "L"; "W"; "U"]%string then Ok name
  else Err KeyError.

(** traverse_brillouin, lines 28-63, after the names have been looked up. *)
Record walk : Type := Walk { w_k : vec; w_coords : list vec; w_graph : list R; w_ticks : list R }.
(** One turn of the loop of lines 55-60; the width is that of lines 48-51. *)
Definition walk_step (a : R) (steps : nat) (w : walk) (target : vec) : walk :=
  let width := vnorm (vscale a (vsub target (w_k w))) in
  let g := last (w_graph w) 0 in
  let graph := w_graph w ++ tl (linspace g (g + width) steps) in
  Walk target
       (w_coords w ++ map (fun s => vadd (w_k w) (vscale s (vsub target (w_k w)))) (tl (linspace 0 1 steps)))
       graph (w_ticks w ++ [last graph 0]).
(** With [walk_step], crystals.py, lines 55-60, lines 48-51. *)
Definition traverse (a : R) (steps : nat) (start : vec) (targets : list vec) : walk :=
  fold_left (walk_step a steps) targets (Walk start [start] [0] [0]).
(** [x / scale]; 0 / 0 is nan, [None] *)
Definition over_scale (scale x : R) : option R := if Req_EM_T scale 0 then None else Some (x / scale).
(** For [traverse_brillouin], crystals.py, lines 28-63. *)
Fixpoint mapR_ {A B} (f : A -> res B) (l : list A) : res (list B) :=
  match l with [] => Ok [] | x :: r => let! y := f x in let! ys := mapR_ f r in Ok (y :: ys) end.
(** Lines 28-63: an empty order is an IndexError, another name a KeyError. *)
Definition traverse_brillouin (a : R) (order : list string) (steps : nat) : res (list vec * list (option R) * list (option R * string)) :=
  match order with
  | [] => Err IndexError
  | _ =>
      let! ps := mapR_ (critical_point a) order in
      let! labels := mapR_ label_of order in
      match ps with
      | [] => Err IndexError
      | p :: ts =>
          let w := traverse a steps p ts in
          let scale := fold_left Rmax (w_graph w) (hd 0 (w_graph w)) in
          Ok (w_coords w, map (over_scale scale) (w_graph w), combine (map (over_scale scale) (w_ticks w)) labels)
      end
  end.

(** kvector, lines 66-104 *)
(** Lines 81-83 *)
Definition x_faces : list vec := [(1, 0, 0); (-1, 0, 0); (0, 1, 0); (0, -1, 0); (0, 0, 1); (0, 0, -1)].
(** With [x_faces], crystals.py, lines 81-83. *)
Definition l_faces : list vec :=
  map (vscale (1 / sqrt 3)) [(1, 1, 1); (1, 1, -1); (1, -1, 1); (1, -1, -1); (-1, 1, 1); (-1, 1, -1); (-1, -1, -1); (-1, -1, 1)].
(** [max(abs(np.dot(F, u)))], lines 92-93 *)
Definition max_abs_dot (faces : list vec) (u : vec) : R := fold_right Rmax 0 (map (fun f => Rabs (vdot f u)) faces).
(** Lines 86-89 *)
Definition direction (t p : R) (vin : option vec) : vec :=
  match vin with
  | Some v => (vx v / vnorm v, vy v / vnorm v, vz v / vnorm v)
  | None => (cos t * sin p, sin t * sin p, cos p)
  end.
(** Lines 77-78, 92-95 *)
Definition k_max (a : R) (u : vec) : R :=
  Rmin (2 * PI / a / max_abs_dot x_faces u) (sqrt 3 * PI / a / max_abs_dot l_faces u).
(** Lines 98-104 *)
Definition kvector (a t p fraction : R) (points : nat) (vin : option vec) : list vec :=
  let u := direction t p vin in
  map (fun m => vscale (k_max a u * m) u) (linspace 0 fraction points).
