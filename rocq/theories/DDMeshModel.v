(** Model of the mesh of the Fortran drift-diffusion module,
    solcore/poisson_drift_diffusion/DDmodel-current.f95: AddLayer (lines 314-349),
    AddMasterNode (373-393), CreateMesh (395-510) and the filling of the node arrays in
    InitDevice (228-253).  Lengths are in metres; quadruple precision and the single precision
    literals 1e-10 and 0.5e-10 are idealised as R. *)
From Coq Require Import Reals List Bool Lia Lra Arith.
From Verif Require Import Common NumModel.
From Coq Require Import List.
Import ListNotations.
Open Scope R_scope.

(** The distance of lines 346 and the tolerance of lines 378-388. *)
Definition eps0 : R := 1 / 10 ^ 10.
(** With [eps0], DDmodel-current.f95, lines 346, lines 378-388. *)
Definition tol0 : R := 5 / 10 * eps0.

(** The loop of [AddMasterNode]; [prev] is the node before the rest of the list (lines 377-386),
    the last node when the list is exhausted (388-391). *)
Fixpoint add_rest (p prev : R) (l : list R) : list R :=
  match l with
  | [] => if Rlt_dec prev (p - tol0) then [p] else []
  | m :: r => if Rlt_dec (p + tol0) m then p :: m :: r
              else if Rlt_dec (Rabs (m - p)) tol0 then m :: r
              else m :: add_rest p m r
  end.
(** [AddMasterNode]; there is always a first node (lines 93, 98, 759 and 794). *)
Definition add_node (l : list R) (p : R) : list R := add_rest p (hd 0 l) l.
(** [AddLayer]: the master nodes and the total width XD, lines 322-325 and 345-347. *)
Definition add_layer (st : list R * R) (w : R) : list R * R :=
  let '(l, xini) := st in let xfin := xini + w in
  (add_node (add_node (add_node l xini) (xfin - eps0)) xfin, xfin).
(** All the layers after [Reset] (lines 758-807: one master node at zero, XD = 0). *)
Definition layers_nodes (ws : list R) : list R * R := fold_left add_layer ws ([0], 0).

(** Lines 410-411: the last master node but one is dropped. *)
Definition drop_before_last (l : list R) : list R := removelast (removelast l) ++ [last l 0].

(** CEILING(len/h), lines 420, 432 and 437. *)
Definition cells (len h : R) : nat := Z.to_nat (Rceil (len / h)).
(** The increments of an interval in the order of lines 415-500, and whether the loop ends on a
    place that is not yet written (a final j = j+1). *)
Section Interval.
Context (coarse fine ultra len : R).
(** Lines 420 and 422. *)
Definition lc : nat := (cells len coarse - 1)%nat.
(** With [lc], DDmodel-current.f95, lines 420. *)
Definition delta : R := len / INR (lc + 1).
(** Lines 432-433. *)
Definition lf : nat := (cells delta fine - 1)%nat.
(** With [lf], DDmodel-current.f95, lines 432-433. *)
Definition deltaF : R := delta / INR (lf + 1).
(** Lines 437-438. *)
Definition lu : nat := (cells deltaF ultra - 1)%nat.
(** With [lu], DDmodel-current.f95, lines 437-438. *)
Definition deltaUF : R := deltaF / INR (lu + 1).
(** Lines 424-428. *)
Definition extra : nat := if (lc =? 0)%nat then 0%nat else 1%nat.
(** Lines 430-457, 459-463 and 465-499. *)
Definition head_steps : list R :=
  if Rlt_dec fine coarse then
    (if Rlt_dec ultra fine then repeat deltaUF (lu + 1) else [deltaF]) ++ repeat deltaF (lf + extra - 1)
  else [].
(** With [head_steps], DDmodel-current.f95, lines 430-457, 459-463 and 465. *)
Definition mid_steps : list R := repeat delta (lc - 1).
(** With [head_steps], DDmodel-current.f95, lines 430-457, 459-463 and 465. *)
Definition ultra_tail : list R := if Rlt_dec ultra fine then repeat deltaUF lu else [].
(** With [head_steps], DDmodel-current.f95, lines 430-457, 459-463 and 465. *)
Definition tail_steps : list R * bool :=
  if Rlt_dec fine coarse then
    if negb (lc =? 0)%nat then (repeat deltaF lf ++ ultra_tail, true)
    else if negb (lf =? 0)%nat then (ultra_tail, true) else ([], false)
  else ([], true).
End Interval.
(** The points reached from x by the increments (for [interval], DDmodel-current.f95, lines 419 and 503). *)
Fixpoint walk (x : R) (l : list R) : list R := match l with [] => [x] | i :: r => x :: walk (x + i) r end.
(** The points of the interval from a to b without b: when there is no final j = j+1, the last
    point is overwritten by the next master node (lines 419 and 503). *)
Definition interval (coarse fine ultra a b : R) : list R :=
  let '(t, fresh) := tail_steps coarse fine ultra (b - a) in
  let pts := walk a (head_steps coarse fine ultra (b - a) ++ mid_steps coarse (b - a) ++ t) in
  if fresh then pts else removelast pts.
(** The loop of lines 417-503. *)
Fixpoint mesh_of (coarse fine ultra : R) (masters : list R) : list R :=
  match masters with
  | a :: ((b :: _) as rest) => interval coarse fine ultra a b ++ mesh_of coarse fine ultra rest
  | _ => masters
  end.
(** [CreateMesh] without a given number of nodes, for the layers of widths ws (by [layers_nodes], DDmodel-current.f95, lines 758-807, [drop_before_last], DDmodel-current.f95, lines 410-411, [mesh_of], DDmodel-current.f95, lines 417-503). *)
Definition create_mesh (coarse fine ultra : R) (ws : list R) : list R :=
  mesh_of coarse fine ultra (drop_before_last (fst (layers_nodes ws))).
(** [CreateMesh] with a given number M of elements, lines 401-408. *)
Definition uniform_mesh (xd : R) (m : nat) : list R := map (fun i => INR i * xd / INR m) (seq 0 (m + 1)).

(** The borders of the layers, DML(:, 1) and DML(:, 2), lines 322-328. *)
Fixpoint borders (x : R) (ws : list R) : list (R * R) := match ws with [] => [] | w :: r => (x, x + w) :: borders (x + w) r end.
(** Lines 228-253: the layer whose data a node at x has in the end; layers are numbered from i;
    a node in no layer keeps [old]. *)
Fixpoint fill (x : R) (i : nat) (old : option nat) (bs : list (R * R)) : option nat :=
  match bs with
  | [] => old
  | (lo, hi) :: r => fill x (i + 1) (if Rle_dec lo x then (if Rle_dec x hi then Some i else old) else old) r
  end.
(** With [fill], DDmodel-current.f95, lines 228-253. *)
Definition layer_at (ws : list R) (x : R) : option nat := fill x 0 None (borders 0 ws).
