(** Model of the solver of banded linear systems in
    solcore/poisson_drift_diffusion/DDmodel-current.f95: bandec (lines 1183-1255), bandbks
    (1257-1299) and SolveLin (1301-1328).  Arrays are functions with the indices of the
    Fortran code (from 1); quadruple precision is idealised as R. *)
From Coq Require Import Reals List Bool Lia Lra Arith.
From Verif Require Import Common DDModel.
From Coq Require Import List.
Import ListNotations.
Open Scope R_scope.

Section Band.
(** The number of rows and of the diagonals below and above the main one, lines 1190-1192. *)
Context (nrow m1 m2 : nat).
(** Line 1204. *)
Definition mm : nat := m1 + m2 + 1.
Notation matrix := (nat -> nat -> R).

(** Lines 1207-1216: the first m1 rows are moved to the left by m1+1-i places and filled with
    zeros (the loop overwrites places that were read before). *)
Definition shift_rows (a : matrix) : matrix := fun i j =>
  if (i <=? m1)%nat then (if (j + (m1 + 1 - i) <=? mm)%nat then a i (j + (m1 + 1 - i))%nat else 0) else a i j.

(** The last row that takes part in step k: l of lines 1219-1223, for m1 <= nrow. *)
Definition last_row (k : nat) : nat := Nat.min nrow (m1 + k).
(** Lines 1221-1229: the first row among k .. k+t with the largest first entry. *)
Fixpoint pivot (a : matrix) (k t : nat) : nat :=
  match t with
  | O => k
  | S t' => let i := pivot a k t' in if Rlt_dec (Rabs (a i 1%nat)) (Rabs (a (k + t)%nat 1%nat)) then (k + t)%nat else i
  end.
(** indx(k), line 1230. *)
Definition piv (a : matrix) (k : nat) : nat := pivot a k (last_row k - k).
(** Lines 1199 and 1233: a vanishing pivot is replaced. *)
Definition TINY : R := 1 / 10 ^ 20.
(** With [TINY], DDmodel-current.f95, lines 1199 and 1233. *)
Definition patched (a : matrix) (k : nat) : matrix := fun i j =>
  if (i =? k)%nat && (j =? 1)%nat then (if Req_EM_T (a (piv a k) 1%nat) 0 then TINY else a i j) else a i j.
(** Lines 1235-1242: interchange of two rows. *)
Definition swap_index (k i r : nat) : nat := if (r =? k)%nat then i else if (r =? i)%nat then k else r.
(** With [swap_index], DDmodel-current.f95, lines 1235-1242. *)
Definition exchanged (a : matrix) (k : nat) : matrix := fun r j => patched a k (swap_index k (piv a k) r) j.
(** The factors al(k, i-k), lines 1245-1247, by row. *)
Definition factor (a : matrix) (k r : nat) : R := exchanged a k r 1%nat / exchanged a k k 1%nat.
(** Lines 1244-1252: elimination; the rows move to the left by one place. *)
Definition eliminated (a : matrix) (k : nat) : matrix := fun r j =>
  if (k <? r)%nat && (r <=? last_row k)%nat then
    (if (j <? mm)%nat then exchanged a k r (j + 1)%nat - factor a k r * exchanged a k k (j + 1)%nat else 0)
  else exchanged a k r j.
(** [bandec], lines 1220-1253, from step k on, t steps: the matrix, and for each step the pivot row and the
    factors (indx and al). *)
Fixpoint bandec (a : matrix) (k t : nat) : matrix * list (nat * (nat -> R)) :=
  match t with
  | O => (a, [])
  | S t' => let '(a', l) := bandec (eliminated a k) (k + 1) t' in (a', (piv a k, factor a k) :: l)
  end.
(** One step of the forward substitution, lines 1277-1286. *)
Definition forward1 (b : nat -> R) (k : nat) (e : nat * (nat -> R)) : nat -> R :=
  let s r := b (swap_index k (fst e) r) in
  fun r => if (k <? r)%nat && (r <=? last_row k)%nat then s r - snd e r * s k else s r.
(** The loop of lines 1276-1287. *)
Fixpoint forward (b : nat -> R) (k : nat) (l : list (nat * (nat -> R))) : nat -> R :=
  match l with [] => b | e :: l' => forward (forward1 b k e) (k + 1) l' end.
(** Back substitution of the rows nrow .. nrow-t+1, lines 1288-1297. *)
Fixpoint back (a : matrix) (b : nat -> R) (t : nat) : nat -> R :=
  match t with
  | O => b
  | S t' =>
      let x := back a b t' in let i := (nrow - t')%nat in
      upd x i ((x i - sum_to (fun k => a i (k + 2)%nat * x (i + k + 1)%nat) (Nat.min mm t - 1)) / a i 1%nat)
  end.
(** [SolveLin], lines 1301-1328. *)
Definition solve_lin (a : matrix) (b : nat -> R) : nat -> R :=
  let '(u, l) := bandec (shift_rows a) 1 nrow in back u (forward b 1 l) nrow.
End Band.
