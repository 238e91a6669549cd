(** The physical constants of solcore/constants.py:1-11, with the values written
    there. *)
From Coq Require Import Reals Lra.
Open Scope R_scope.

(** solcore/constants.py:1 *)
Definition kb : R := 13806503 / 10 ^ 30.
(** solcore/constants.py:2 *)
Definition q : R := 160217646 / 10 ^ 27.
(** solcore/constants.py:3 *)
Definition h : R := 6626068 / 10 ^ 40.
(** solcore/constants.py:4 *)
Definition hbar : R := 105457148 / 10 ^ 42.
(** solcore/constants.py:5 *)
Definition electron_mass : R := 910938188 / 10 ^ 39.
(** solcore/constants.py:6 *)
Definition vacuum_permittivity : R := 8854187817 / 10 ^ 21.
(** solcore/constants.py:7 *)
Definition c : R := 299792458.

Lemma pow10_pos n : 0 < 10 ^ n.
Proof. apply pow_lt. lra. Qed.
Lemma kb_pos : 0 < kb.
Proof. unfold kb. apply Rdiv_lt_0_compat; [lra|apply pow10_pos]. Qed.
Lemma q_pos : 0 < q.
Proof. unfold q. apply Rdiv_lt_0_compat; [lra|apply pow10_pos]. Qed.
Lemma h_pos : 0 < h.
Proof. unfold h. apply Rdiv_lt_0_compat; [lra|apply pow10_pos]. Qed.
Lemma hbar_pos : 0 < hbar.
Proof. unfold hbar. apply Rdiv_lt_0_compat; [lra|apply pow10_pos]. Qed.
Lemma electron_mass_pos : 0 < electron_mass.
Proof. unfold electron_mass. apply Rdiv_lt_0_compat; [lra|apply pow10_pos]. Qed.
Lemma vacuum_permittivity_pos : 0 < vacuum_permittivity.
Proof. unfold vacuum_permittivity. apply Rdiv_lt_0_compat; [lra|apply pow10_pos]. Qed.
Lemma c_pos : 0 < c.
Proof. unfold c. lra. Qed.
(** Only the signs are used in proofs. *)
Global Opaque kb q h hbar electron_mass vacuum_permittivity c.
