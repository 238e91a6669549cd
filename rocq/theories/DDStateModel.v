(** Model of the state that solcore/poisson_drift_diffusion/DDmodel-current.f95 keeps between calls:
    AddAbsorption (351-362), set_generation (364-371), Reset (758-807), Illumination (1017-1028),
    FrontBoundary and BackBoundary (1030-1093), and of InitDevice, Equilibrium, LightSC, RunIV and
    RunIQE what they do to the flags and to the photon flux (299-306, 413, 1893-1921, 1948-1967, 2045 and
    2146-2151).  Real numbers are idealised as R. *)
From Coq Require Import Reals ZArith List Bool Arith String.
From Coq Require Import List.
Import ListNotations.
Open Scope R_scope.

(** The variables of the module, lines 59-77 and 93-102.  The solution, the mesh and the properties
    of layers are left out: they depend on these variables by [view] and [broadband] below. *)
Record st := St { dyn : bool; single : bool; numwl : nat; mreg : nat; waves : nat -> R; lib : nat -> nat -> R;
  prof : nat -> nat -> R; pf : nat -> R; flux : R; vel_f : R * R; vel_b : R * R; type_f : nat; type_b : nat;
  bar_f : R; bar_b : R; eq : bool; sc : bool; oc : bool; ocn : bool; ocp : bool; gen : bool }.

Section State.
(** What is in memory after the end of an array given by the caller. *)
Context (junk : nat -> R).
(** Element k of an array given by the caller, lines 358, 360, 368, 369 and 1021. *)
Definition elem (l : list R) (k : nat) : R := nth k l (junk k).
(** An assignment to the elements 0:n of an array, lines 358, 360, 369 and 1021. *)
Definition assign (n : nat) (l : list R) (a : nat -> R) : nat -> R := fun k => if (k <=? n)%nat then elem l k else a k.

(** AddLayer, line 322; the properties of the layer are in DDMeshModel and PddModel. *)
Definition add_layer (s : st) : st :=
  St (dyn s) (single s) (numwl s) (S (mreg s)) (waves s) (lib s) (prof s) (pf s) (flux s) (vel_f s) (vel_b s) (type_f s) (type_b s)
     (bar_f s) (bar_b s) (eq s) (sc s) (oc s) (ocn s) (ocp s) (gen s).
(** AddAbsorption, lines 356-360. *)
Definition add_absorption (ab wl : list R) (s : st) : st :=
  let first := (numwl s =? 2)%nat in
  let n := if first then (length wl - 1)%nat else numwl s in
  let w := if first then assign n wl (waves s) else waves s in
  St (dyn s) (single s) n (mreg s) w (fun i => if (i =? mreg s)%nat then assign n ab (lib s i) else lib s i)
     (prof s) (pf s) (flux s) (vel_f s) (vel_b s) (type_f s) (type_b s)
     (bar_f s) (bar_b s) (eq s) (sc s) (oc s) (ocn s) (ocp s) (gen s).
(** set_generation, lines 367-369: the first row has the wavelengths, the others are those of the nodes. *)
Definition set_generation (wl : list R) (rows : list (list R)) (s : st) : st :=
  let n := (length wl - 1)%nat in
  St (dyn s) (single s) n (mreg s) (assign n wl (waves s)) (lib s)
     (fun j => if (j <? length rows)%nat then assign n (nth j rows []) (prof s j) else prof s j)
     (pf s) (flux s) (vel_f s) (vel_b s) (type_f s) (type_b s)
     (bar_f s) (bar_b s) (eq s) (sc s) (oc s) (ocn s) (ocp s) (gen s).
(** The loop of lines 1024-1026. *)
Fixpoint flux_to (p w : nat -> R) (n : nat) : R :=
  match n with O => 0 | S k => flux_to p w k + (p k + p (S k)) / 2 * (w (S k) - w k) end.
(** Illumination, lines 1021-1026. *)
Definition illumination (sp : list R) (s : st) : st :=
  let p := assign (numwl s) sp (pf s) in
  St (dyn s) (single s) (numwl s) (mreg s) (waves s) (lib s) (prof s) p (flux_to p (waves s) (numwl s)) (vel_f s) (vel_b s)
     (type_f s) (type_b s) (bar_f s) (bar_b s) (eq s) (sc s) (oc s) (ocn s) (ocp s) (gen s).
(** The code of the type and whether OC is set, lines 1038-1058 and 1069-1089: 'schottky' and 'charged'
    return after the message, the assignments after RETURN are never reached.  The blanks at the end of
    the 30 characters are left out. *)
Definition boundary (t : string) : nat * bool :=
  if String.eqb t "ohmic" then (1%nat, false)
  else if String.eqb t "schottky" then (0%nat, false)
  else if String.eqb t "insulator" then (3%nat, true)
  else (0%nat, false).
(** FrontBoundary, lines 1035-1058. *)
Definition front (t : string) (se sh bar : R) (s : st) : st :=
  let '(c, o) := boundary t in
  St (dyn s) (single s) (numwl s) (mreg s) (waves s) (lib s) (prof s) (pf s) (flux s) (se, sh) (vel_b s)
     c (type_b s) (bar_f s) (bar_b s) (eq s) (sc s) (if o then true else oc s) (ocn s) (ocp s) (gen s).
(** BackBoundary, lines 1066-1089. *)
Definition back (t : string) (se sh bar : R) (s : st) : st :=
  let '(c, o) := boundary t in
  St (dyn s) (single s) (numwl s) (mreg s) (waves s) (lib s) (prof s) (pf s) (flux s) (vel_f s) (se, sh)
     (type_f s) c (bar_f s) (bar_b s) (eq s) (sc s) (if o then true else oc s) (ocn s) (ocp s) (gen s).
(** Reset, lines 758-807: Dynamic, the types, velocities and flags and the photon flux are not in it. *)
Definition reset (s : st) : st :=
  St (dyn s) false 2 0 (fun _ => 0) (fun _ _ => 0) (fun _ _ => 0) (fun _ => 0) (flux s) (vel_f s) (vel_b s) (type_f s) (type_b s)
     (bar_f s) (bar_b s) (eq s) (sc s) (oc s) (ocn s) (ocp s) (gen s).
(** InitDevice with MM mesh points, line 413 (reached only if MM is not positive, 401-408); the absorption of
    nodes (246) is that of DDMeshModel and left as it is here. *)
Definition init (mm : Z) (s : st) : st :=
  St (dyn s || (mm <? 0)%Z) (single s) (numwl s) (mreg s) (waves s) (lib s) (prof s) (pf s) (flux s) (vel_f s) (vel_b s) (type_f s) (type_b s)
     (bar_f s) (bar_b s) (eq s) (sc s) (oc s) (ocn s) (ocp s) (gen s).
(** Flags set, everything else kept (for [equilibrium], [light_sc] and [run_iv]). *)
Definition flags (e c o on op g : bool) (s : st) : st :=
  St (dyn s) (single s) (numwl s) (mreg s) (waves s) (lib s) (prof s) (pf s) (flux s) (vel_f s) (vel_b s) (type_f s) (type_b s)
     (bar_f s) (bar_b s) e c o on op g.
(** Equilibrium while it solves, lines 1892-1898. *)
Definition equilibrium_in (s : st) : st := flags true false false false false false s.
(** Equilibrium at its end, lines 1908 and 1923: EQ is cleared and GEN put back. *)
Definition equilibrium (s : st) : st := flags false false false false false (gen s) (equilibrium_in s).
(** LightSC, lines 1949-1967, with the mode and whether the back is n-type. *)
Definition light_sc (mode : Z) (n_back : bool) (s : st) : st :=
  if (mode =? 1)%Z then flags (eq s) true false false false true s
  else if (mode =? -1)%Z then flags (eq s) false true n_back (negb n_back) true s
  else flags (eq s) false false false false true s.
(** RunIV, line 2045. *)
Definition run_iv (s : st) : st := flags (eq s) true (oc s) (ocn s) (ocp s) (gen s) s.
(** RunIQE, lines 2147-2153. *)
Definition run_iqe (s : st) : st :=
  St (dyn s) true (numwl s) (mreg s) (waves s) (lib s) (prof s) (pf s) (flux s / 10 ^ 8) (vel_f s) (vel_b s) (type_f s) (type_b s)
     (bar_f s) (bar_b s) (eq s) true (oc s) (ocn s) (ocp s) (gen s).

(** What SolveNonLin reads of these variables: lines 1479-1480, 1548-1559 and 1724-1788. *)
Definition view (s : st) : (R * R) * (R * R) * (bool * bool * bool * bool) := (vel_f s, vel_b s, (eq s, sc s, ocn s, ocp s)).
(** Generation, lines 1832-1836: which of the three generations is calculated. *)
Inductive generation := Dark | Broadband | Single.
(** Generation, lines 1832-1836. *)
Definition kind (s : st) : generation := if negb (gen s) then Dark else if negb (single s) then Broadband else Single.
(** InitDevice, lines 299-306 and Equilibrium, 1902-1906: whether the mesh is adapted. *)
Definition adapts (mm : Z) (s : st) : bool := dyn (init mm s).

(** The calls of the module. *)
Inductive call := Reset | AddLayer | AddAbsorption (ab wl : list R) | SetGeneration (wl : list R) (rows : list (list R))
  | Illumination (sp : list R) | Front (t : string) (se sh bar : R) | Back (t : string) (se sh bar : R) | Init (mm : Z)
  | Equilibrium | LightSC (mode : Z) (n_back : bool) | RunIV | RunIQE.
(** A call, lines as above. *)
Definition step (s : st) (c : call) : st :=
  match c with
  | Reset => reset s
  | AddLayer => add_layer s
  | AddAbsorption ab wl => add_absorption ab wl s
  | SetGeneration wl rows => set_generation wl rows s
  | Illumination sp => illumination sp s
  | Front t se sh bar => front t se sh bar s
  | Back t se sh bar => back t se sh bar s
  | Init mm => init mm s
  | Equilibrium => equilibrium s
  | LightSC m b => light_sc m b s
  | RunIV => run_iv s
  | RunIQE => run_iqe s
  end.
(** Calls one after the other. *)
Definition run (cs : list call) (s : st) : st := fold_left step cs s.
(** The module as loaded, lines 59-102; what has no initial value there is zero or false. *)
Definition loaded : st :=
  St false false 2 0 (fun _ => 0) (fun _ _ => 0) (fun _ _ => 0) (fun _ => 0) 0 (0, 0) (0, 0) 0 0 0 0 false false false false false false.
End State.
