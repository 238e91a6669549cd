(** Model of solcore/optimization/differential_evolution.py:16-72. The algorithm itself belongs to
    the package yabox: here it is an arbitrary sequence of steps. *)
From Coq Require Import Reals List Bool Arith ZArith.
From Verif Require Import Common.
Import ListNotations.
Open Scope list_scope.

(** The arrays that exist at some time, by identity: a population is a list of rows (for [de_step], differential_evolution.py, lines 27-31). *)
Definition heap : Type := nat -> list (list R).
(** What the iterator yields (lines 27-31), and the arrays at that time: [st_population] is the
    identity of the array, which the iterator may go on changing. The values of [fitness] that are
    used are numbers, so its identity does not matter. *)
Record de_step : Type := Step
  { st_iteration : nat; st_best : nat; st_population : nat; st_fitness : list R; st_heap : heap }.
(** [P[idx]] is a view: the array and the number of the row (for [evolution], differential_evolution.py, lines 26-39). *)
Definition view : Type := (nat * nat)%type.
(** For [solve], differential_evolution.py, lines 17-43. *)
Definition contents (h : heap) (v : view) : res (list R) :=
  match nth_error (h (fst v)) (snd v) with Some r => Ok r | None => Err IndexError end.
(** [np.mean] (for [solve], differential_evolution.py, lines 17-43). *)
Definition mean (l : list R) : R := (fold_right Rplus 0 l / INR (length l))%R.
(** [l[p-1::p]], lines 41-43: the last of every [p]; a step of 0 is a ValueError. *)
Fixpoint every_from {A} (fuel p : nat) (l : list A) : list A :=
  match fuel with
  | O => []
  | S f => match skipn (p - 1) l with [] => [] | x :: r => x :: every_from f p r end
  end.
(** With [every_from], differential_evolution.py, lines 41-43. *)
Definition every {A} (p : nat) (l : list A) : res (list A) :=
  match p with O => Err ValueError | S _ => Ok (every_from (length l) p l) end.

(** The loop of lines 26-39: the lists in order, and the step the variables [idx], [P] and
    [fitness] come from, if there was any. *)
Record evolution : Type := Evolution { ev_views : list view; ev_best : list R; ev_mean : list R; ev_last : option de_step }.
(** With [evolution], differential_evolution.py, lines 26-39. *)
Fixpoint evolve (maxiters : nat) (e : evolution) (ss : list de_step) : res evolution :=
  match ss with
  | [] => Ok e
  | s :: ss' =>
      let e' := Evolution (ev_views e) (ev_best e) (ev_mean e) (Some s) in
      if (maxiters <? st_iteration s)%nat then Ok e'
      else
        let v := (st_population s, st_best s) in
        let! _ := contents (st_heap s) v in
        match nth_error (st_fitness s) (st_best s) with
        | None => Err IndexError
        | Some f => evolve maxiters (Evolution (ev_views e ++ [v]) (ev_best e ++ [f]) (ev_mean e ++ [mean (st_fitness s)]) (Some s)) ss'
        end
  end.
(** With [evolution], differential_evolution.py, lines 26-39. *)
Record de_result : Type := Result
  { de_best : list R; de_fitness : R; de_pop_evo : list (list R); de_best_evo : list R; de_mean_evo : list R }.
(** With [evolution], differential_evolution.py, lines 26-39. *)
Fixpoint rows_of (h : heap) (vs : list view) : res (list (list R)) :=
  match vs with [] => Ok [] | v :: r => let! x := contents h v in let! y := rows_of h r in Ok (x :: y) end.

Section Solve.
(** [denormalize] of one individual (yabox); of several, of each of them. *)
Context (denormalize : list R -> list R).
(** DE.solve, lines 17-43. [ss]: the steps the iterator has, up to any one after it is left. *)
Definition solve (maxiters popsize : nat) (ss : list de_step) : res de_result :=
  let! e := evolve maxiters (Evolution [] [] [] None) ss in
  match ev_last e with
  | None => Err UnboundLocalError
  | Some s =>
      let! b := contents (st_heap s) (st_population s, st_best s) in
      match nth_error (st_fitness s) (st_best s) with
      | None => Err IndexError
      | Some f =>
          let! vs := every popsize (ev_views e) in
          let! rs := rows_of (st_heap s) vs in
          let! bs := every popsize (ev_best e) in
          let! ms := every popsize (ev_mean e) in
          Ok (Result (denormalize b) f (map denormalize rs) bs ms)
      end
  end.

(** * The parallel class, lines 47-72 *)
(** For [new_pool], differential_evolution.py, lines 55-57. *)
Inductive pool : Type := NoPool | Running | Terminated.
(** Lines 55-57 *)
Definition new_pool (processes : option Z) : pool :=
  match processes with None => Running | Some n => if (0 <? n)%Z then Running else NoPool end.
(** Lines 68-72. [Pool.map] has the values of [map], in order, whatever the chunks; a pool that was
    terminated raises a ValueError. *)
Definition evaluate (fobj : list R -> R) (p : pool) (pd : list (list R)) : res (list R) :=
  match p with Terminated => Err ValueError | _ => Ok (map fobj pd) end.
(** The iterator of yabox for a seed, as a function of how a population is evaluated: it evaluates
    its first population before the first step. *)
Context (steps : (list (list R) -> res (list R)) -> res (list de_step)).
(** Line 66 runs when the generator is left, at the latest at the end of [solve]. *)
Definition pde_solve (maxiters popsize : nat) (fobj : list R -> R) (p : pool) : pool * res de_result :=
  (match p with NoPool => NoPool | _ => Terminated end,
   let! ss := steps (evaluate fobj p) in solve maxiters popsize ss).
(** The sequential class: yabox evaluates one after the other (by [solve], differential_evolution.py, lines 17-43). *)
Definition de_solve (maxiters popsize : nat) (fobj : list R -> R) : res de_result :=
  let! ss := steps (fun pd => Ok (map fobj pd)) in solve maxiters popsize ss.
End Solve.
