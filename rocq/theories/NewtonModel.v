(** Model of a Newton step of the Fortran drift-diffusion module,
    solcore/poisson_drift_diffusion/DDmodel-current.f95: the rows of the Jacobian at the
    surfaces (lines 1722-1788), the compact array (1659-1788), the correction (1444-1446) and
    the loop of [SolveNonLin] (1406-1501). *)
From Coq Require Import Reals List Bool Lia Lra Arith.
From Verif Require Import Common DDModel BandModel.
From Coq Require Import List.
Import ListNotations.
Open Scope R_scope.

Section Rows.
Context (d : dev) (s : pot) (w : bnd).
Local Notation M := (d_M d).

(** The rows of node 0, lines 1722-1752 ([side] 1 is node 0, 2 is node 1), and of node M, lines
    1758-1788 ([side] 0 is node M-1, 1 is node M). *)
Definition front_hole (u : unk) (side : nat) : R :=
  let c := (1 - w_EQ w) * (1 - w_OCn w) * dd_q * s_pf w * p d s 0 in
  match side, u with
  | 1%nat, UFp => - dfuncp d s UFp false 0 - c
  | 1%nat, UPsi => - dfuncp d s UPsi false 0 + c
  | 1%nat, UFn => - dfuncp d s UFn false 0
  | _, _ => - dfuncp d s u true 0
  end.
(** With [front_hole], DDmodel-current.f95, lines 1722-1752, lines 1758-1788. *)
Definition front_poisson (u : unk) (side : nat) : R :=
  match side, u with
  | 1%nat, UPsi => - (d_eps d 1 + d_eps d 0) / d_dX d 0
  | 2%nat, UPsi => (1 - w_SC w) * (d_eps d 1 + d_eps d 0) / d_dX d 0
  | _, _ => 0
  end.
(** With [front_hole], DDmodel-current.f95, lines 1722-1752, lines 1758-1788. *)
Definition front_electron (u : unk) (side : nat) : R :=
  let c := (1 - w_EQ w) * (1 - w_OCp w) * dd_q * s_nf w * n d s 0 in
  match side, u with
  | 1%nat, UFp => - dfuncn d s UFp false 0
  | 1%nat, UPsi => - dfuncn d s UPsi false 0 + c
  | 1%nat, UFn => - dfuncn d s UFn false 0 - c
  | _, _ => - dfuncn d s u true 0
  end.
(** With [front_hole], DDmodel-current.f95, lines 1722-1752, lines 1758-1788. *)
Definition back_hole (u : unk) (side : nat) : R :=
  let c := (1 - w_EQ w) * (1 - w_OCp w) * dd_q * s_pb w * p d s M in
  match side, u with
  | 0%nat, _ => dfuncp d s u false (M - 1) - dgrec d s u (M - 1) (M - 1)
  | _, UFp => dfuncp d s UFp true (M - 1) - dgrec d s UFp (M - 1) M - c
  | _, UPsi => dfuncp d s UPsi true (M - 1) - dgrec d s UPsi (M - 1) M + c
  | _, UFn => dfuncp d s UFn true (M - 1) - dgrec d s UFn (M - 1) M
  end.
(** With [front_hole], DDmodel-current.f95, lines 1722-1752, lines 1758-1788. *)
Definition back_poisson (u : unk) (side : nat) : R :=
  match side, u with
  | 1%nat, UPsi => - (d_eps d M + d_eps d (M - 1)) / d_dX d (M - 1)
  | _, _ => 0
  end.
(** With [front_hole], DDmodel-current.f95, lines 1722-1752, lines 1758-1788. *)
Definition back_electron (u : unk) (side : nat) : R :=
  let c := (1 - w_EQ w) * (1 - w_OCn w) * dd_q * s_nb w * n d s M in
  match side, u with
  | 0%nat, _ => dfuncn d s u false (M - 1) + dgrec d s u (M - 1) (M - 1)
  | _, UFp => dfuncn d s UFp true (M - 1) + dgrec d s UFp (M - 1) M
  | _, UPsi => dfuncn d s UPsi true (M - 1) + dgrec d s UPsi (M - 1) M + c
  | _, UFn => dfuncn d s UFn true (M - 1) + dgrec d s UFn (M - 1) M - c
  end.

(** The three equations of a node, in the order of the rows, lines 1526-1564. *)
Definition residual (e k : nat) : R :=
  match e with 0%nat => f_hole d s w k | 1%nat => f_poisson d s w k | _ => f_electron d s w k end.
(** Lines 1659-1788: the entry of equation e of node k for an unknown of node k-1+side. *)
Definition entry (e k : nat) (u : unk) (side : nat) : R :=
  match e with
  | 0%nat => if (k =? 0)%nat then front_hole u side else if (k =? M)%nat then back_hole u side else J_hole d s k u side
  | 1%nat => if (k =? 0)%nat then front_poisson u side else if (k =? M)%nat then back_poisson u side else J_poisson d s k u side
  | _ => if (k =? 0)%nat then front_electron u side else if (k =? M)%nat then back_electron u side else J_electron d s k u side
  end.
(** The order of the unknowns of a node, lines 1353-1355. *)
Definition unknown (v : nat) : unk := match v with 0%nat => UFp | 1%nat => UPsi | _ => UFn end.
(** The array Jac after [FillJacobian]: row 3k+1+e, places 3-e .. 11-e are written (lines 1659-1788), save those
    of nodes that do not exist; the others keep their old content. *)
Definition jac (old : nat -> nat -> R) (i j : nat) : R :=
  let k := ((i - 1) / 3)%nat in let e := ((i - 1) mod 3)%nat in
  let side := ((j + e - 3) / 3)%nat in let v := ((j + e - 3) mod 3)%nat in
  if (3 <=? j + e)%nat && (j + e <=? 11)%nat && negb ((k =? 0)%nat && (side =? 0)%nat) && negb ((k =? M)%nat && (side =? 2)%nat)
  then entry e k (unknown v) side else old i j.
(** The right hand side after [FillF] (with the sign of line 1566) and the correction, lines
    1444-1446. *)
Definition rhs (i : nat) : R := - residual ((i - 1) mod 3) ((i - 1) / 3).
(** With [rhs], DDmodel-current.f95, line 1566, lines 1444-1446. *)
Definition newton (old : nat -> nat -> R) : nat -> R := solve_lin (3 * M + 3) 5 5 (jac old) rhs.
End Rows.

(** The potentials after a fraction of the correction, lines 1366-1368 and 1378-1380. *)
Definition along (x : nat -> R) (t : R) (s : pot) : pot :=
  mkPot (fun k => o_Fp s k + t * x (3 * k + 1)%nat) (fun k => o_Psi s k + t * x (3 * k + 2)%nat) (fun k => o_Fn s k + t * x (3 * k + 3)%nat).

(** The loop of [SolveNonLin], lines 1434-1499, over any state: [it] is one iteration (lines
    1441-1447), which starts with the norm before, and [norm] the norm of lines 1450-1460.
    The result is the state, the norm, the number of iterations and the code info. *)
Section Loop.
Context {S : Type} (it : R -> S -> S) (norm : S -> R) (nitermax : nat) (atol rtol : R).
(** The exit conditions, lines 1463-1469. *)
Definition verdict (niter : nat) (sum sum_old : R) : nat :=
  if (nitermax <=? niter)%nat then 1%nat
  else if Rlt_dec sum atol then 2%nat
  else if Rlt_dec (Rabs ((sum - sum_old) / sum_old)) rtol then (if (1 <? niter)%nat then 3%nat else 0%nat)
  else 0%nat.
(** [fuel] bounds the recursion; None when it runs out (by [verdict], DDmodel-current.f95, lines 1463-1469). *)
Fixpoint newton_loop (fuel niter : nat) (sum : R) (st : S) : option (S * R * nat * nat) :=
  match fuel with
  | O => None
  | Datatypes.S fuel' =>
      let st' := it sum st in let sum' := norm st' in let niter' := (niter + 1)%nat in
      match verdict niter' sum' sum with
      | O => newton_loop fuel' niter' sum' st'
      | info => Some (st', sum', niter', info)
      end
  end.
(** Lines 1722-1788. *)
Definition solve_nonlin (fuel : nat) (st : S) : option (S * R * nat * nat) := newton_loop fuel 0 (norm st) st.
End Loop.
