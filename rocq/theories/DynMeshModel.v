(** Model of DynamicMesh, solcore/poisson_drift_diffusion/DDmodel-current.f95:512-746: the
    adaptation of the mesh to a solution.  Simplified: quadruple precision and the single precision
    literal 2e-10 are R; Growth is not zero; the bounds of the arrays (6001 nodes, 517-524) are not
    checked, see C196_size_refuted.  The absorption profile (687-689, 700) is one more quantity of
    a node; what is calculated afterwards from the layers (713-744) is left out. *)
From Coq Require Import Reals List Bool Arith ZArith.
From Verif Require Import Common NumModel.
From Coq Require Import List.
Import ListNotations.
Open Scope R_scope.

(** A node: X, Psi, Fn, Fp, n, p and any other quantity, lines 547-551 and 683-689. *)
Record node := Node { nx : R; psi : R; fn : R; fp : R; nn : R; pp : R; other : R }.
(** Interpol, lines 748-756 *)
Definition interpol (xx x1 y1 x2 y2 : R) : R :=
  (y2 - y1) / (x2 - x1) * xx + (y1 * x2 - y2 * x1) / (x2 - x1).
(** The flags NotMasterNode, lines 529-537 and 655-661; [ms] are the master nodes ahead.
    Simplified: no node comes after the last master node. *)
Fixpoint marks (ms xs : list R) : list bool :=
  match xs with
  | [] => []
  | x :: r =>
      match ms with
      | [] => true :: marks ms r
      | m :: ms' => if Rle_dec m x then false :: marks ms' r else true :: marks ms r
      end
  end.
(** The nodes with their flags, lines 528-537 and 654-661. *)
Definition flagged (ms xs : list R) : list (R * bool) :=
  match xs with [] => [] | x :: r => (x, false) :: combine r (marks (tl ms) r) end.

Section Mesh.
(** Growth, line 104 *)
Context (G : R).
(** CEILING of an infinite number, lines 595 and 606: any integer. *)
Context (inf_ceil : Z).
(** What the array holds after its last node, line 669. *)
Context (beyond : R).
(** minSize, line 539 *)
Definition min_size : R := 2 / 10 ^ 10.
(** CEILING(a / b), lines 584, 595, 606, 617 and 639 *)
Definition ceil_div (a b : R) : Z := if Req_EM_T b 0 then inf_ceil else Rceil (a / b).
(** Lines 585, 596, 607 and 618, for an element of length [d] *)
Definition cap (d : R) (frac : Z) : Z :=
  if (Rceil (d / min_size) <? frac)%Z then Rceil (d / min_size) else frac.
(** Lines 586-591, 597-602, 608-613, 619-624 and 640-646: an element from [a] to [b] in [frac] parts *)
Definition pieces (a b : R) (frac : Z) : list R :=
  map (fun k => a + INR k * (b - a) / IZR frac) (seq 1 (Z.to_nat (frac - 1))) ++ [b].
(** Dvar for [t = c] and Dvar2 for the node after it, lines 547-558 and 572-573: [xt] is Xtemp(j),
    [la] the node ilast, [c] the node i. *)
Definition variation (xt : R) (la c t : node) : R :=
  let here f := interpol xt (nx la) (f la) (nx c) (f c) in
  let nint := exp (interpol xt (nx la) (ln (nn la)) (nx c) (ln (nn c))) in
  let pint := exp (interpol xt (nx la) (ln (pp la)) (nx c) (ln (pp c))) in
  Rmax (Rmax (Rmax (Rabs (here psi - psi t)) (Rabs (here fn - fn t))) (Rabs (here fp - fp t)))
       (Rmax (Rabs (ln (nint / nn t))) (Rabs (ln (pint / pp t)))) / 2.

Section Sweep.
(** MasterNodes and RegionSize, lines 93 and 527-533, from zero *)
Context (ms : list R) (regions : nat).
(** MasterNodes(l), line 93 *)
Definition mn (l : nat) : R := nth l ms 0.
(** RegionSize(l), lines 527, 532: zero after the [regions] that end at a node. *)
Definition region_size (l : nat) : R := if Nat.ltb l regions then mn (S l) - mn l else 0.
(** Join, lines 576-580 *)
Definition join (l : nat) (not_master : bool) (xt : R) (la c t : node) : bool :=
  (not_master &&
   (if Rlt_dec (variation xt la c t) G then true else false) &&
   (if Rlt_dec (nx t - xt) (G * (nx t - mn l)) then true else false) &&
   (if Rlt_dec (nx t - xt) (G * (mn (S l) - nx c)) then true else false) &&
   (if Rlt_dec (nx t - xt) (G * region_size l / 10) then true else false))%bool.
(** The nodes added for node i, lines 583-630; [p] is the node before it and [t] the one after. *)
Definition added (l : nat) (not_master : bool) (xt : R) (la p c t : node) : list R :=
  let d := nx c - nx p in
  if Rlt_dec G (variation xt la c c) then pieces (nx p) (nx c) (cap d (ceil_div (variation xt la c c) G))
  else if Rle_dec (G * (nx c - mn l)) d then pieces (nx p) (nx c) (cap d (ceil_div (d / G) (nx c - mn l)))
  else if Rle_dec (G * (mn (S l) - nx c)) d then pieces (nx p) (nx c) (cap d (ceil_div (d / G) (mn (S l) - nx c)))
  else if Rle_dec (G * region_size l / 10) d then pieces (nx p) (nx c) (cap d (ceil_div d (G * region_size l / 10)))
  else if join l not_master xt la c t then [] else [nx c].
(** The loop and the last interval, lines 544-646 *)
Fixpoint sweep (l : nat) (xt : R) (la p : node) (rest : list (node * bool)) : list R :=
  match rest with
  | [] => []
  | (c, b) :: r =>
      match r with
      | [] => pieces (nx p) (nx c) (ceil_div ((nx c - nx p) / G) (nx c - nx p))
      | (t, _) :: _ =>
          let o := added l b xt la p c t in
          o ++ sweep (if b then l else S l) (last o xt) (match o with [] => la | _ => c end) c r
      end
  end.
End Sweep.
(** Lines 527-646: the positions of the new nodes before they are smoothed *)
Definition refined (ms : list R) (X : list node) : list R :=
  match X with
  | [] => []
  | a :: r =>
      let fl := marks (tl ms) (map nx r) in
      nx a :: sweep ms (length (filter negb fl)) 0 (nx a) a a (combine r fl)
  end.
(** Lines 667-672 after the node at [left] *)
Fixpoint smooth_rest (left : R) (l : list (R * bool)) : list (R * bool) :=
  match l with
  | [] => []
  | (x, b) :: r =>
      let x' := if b then (left + x + match r with [] => beyond | (y, _) :: _ => y end) / 3 else x in
      (x', b) :: smooth_rest x' r
  end.
(** Lines 667-672 *)
Definition smooth_pass (l : list (R * bool)) : list (R * bool) :=
  match l with [] => [] | (x, b) :: r => (x, b) :: smooth_rest x r end.
(** Lines 527-673: the new nodes *)
Definition new_mesh (ms : list R) (X : list node) : list (R * bool) :=
  Nat.iter 10 smooth_pass (flagged ms (refined ms X)).
End Mesh.

(** Where the values of a node come from, lines 683-700. *)
Inductive place := At (q : node) | Between (p q : node).
(** The loops of lines 679-681 and 692-695: [p] is the node k and [l] are those after it; both
    loops end at the first node of [l] not before [x]. *)
Fixpoint skip (x : R) (p : node) (l : list node) : node * list node :=
  match l with
  | q :: r => if Rlt_dec (nx q) x then skip x q r else (p, l)
  | [] => (p, [])
  end.
(** The loop of lines 675-702; an index after the last node is an IndexError. *)
Fixpoint locate (p : node) (l : list node) (xs : list (R * bool)) : res (list (R * place)) :=
  match xs with
  | [] => Ok []
  | (x, b) :: r =>
      match skip x p l with
      | (_, []) => Err IndexError
      | (p', q :: l') =>
          if b then (let! o := locate p' (q :: l') r in Ok ((x, Between p' q) :: o))
          else (let! o := locate q l' r in Ok ((x, At q) :: o))
      end
  end.
(** The new value of a quantity, lines 683-689 and 697-700. *)
Definition value (f : node -> R) (e : R * place) : R :=
  match snd e with
  | At q => f q
  | Between p q => interpol (fst e) (nx p) (f p) (nx q) (f q)
  end.
(** DynamicMesh, lines 512-710: the new nodes with the origin of their values. *)
Definition dynamic_mesh (G : R) (inf_ceil : Z) (beyond : R) (ms : list R) (X : list node) : res (list (R * place)) :=
  match X with [] => Err IndexError | a :: _ => locate a X (new_mesh G inf_ceil beyond ms X) end.
