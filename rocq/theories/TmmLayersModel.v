(** Model of the bookkeeping parts of solcore/absorption_calculator/tmm_core_vec.py: depths
    and layers, analytic absorption functions, and the grouping into incoherent layers and
    coherent stacks. *)
From Coq Require Import Reals String List Arith Bool.
From Coquelicot Require Import Complex.
From Verif Require Import Common InterpModel NpModel BeerLambertModel TmmModel.
From Coq Require Import List.
Import ListNotations.
Open Scope R_scope.
Open Scope list_scope.

(** * Depths *)
(** tmm_core_vec.py:430-455 [find_in_structure]; thicknesses are [Some d], or [None] for
    [np.inf]. Line 449-450 refuses an infinite sum. [np.searchsorted(.., side='right')] on a
    nondecreasing array counts the entries <= dist; [cum_sum[layer - 1]] with [layer = 0] is
    numpy's index -1, the last entry. *)
Definition find_in_structure (ds : list (option R)) (dist : R) : res (nat * R) :=
  match finite_all ds with
  | Err _ => Err ValueError
  | Ok d =>
      let cum := psums 0 d in
      let layer := count_le cum dist in
      let start := match layer with O => last cum 0 | S k => at_ cum k end in
      Ok (layer, dist - start)
  end.
(** tmm_core_vec.py:458-472 *)
Definition find_in_structure_with_inf (ds : list (option R)) (dist : R) : res (nat * R) :=
  find_in_structure (inner ds) dist.
(** tmm_core_vec.py:475-488 [layer_starts]; [None] stands for [-np.inf]. Two entries are
    needed (line 485); an infinite inner thickness is outside the model. *)
Definition layer_starts (ds : list (option R)) : res (list (option R)) :=
  if (length ds <? 2)%nat then Err IndexError
  else let! d := finite_all (inner ds) in Ok (None :: map Some (psums 0 d)).

(** * class absorp_analytic_fn, tmm_core_vec.py:491-613, at one wavelength *)
(** For [fill_in], tmm_core_vec.py, lines 508-543. *)
Record afn : Type := Afn { f_A1 : R; f_A2 : R; f_A3 : C; f_a1 : R; f_a3 : R; f_d : R }.
(** Lines 525-529: small or negative coefficients become zero. *)
Definition cut30 (x : R) : R := if Rlt_dec x (/ 10 ^ 30) then 0 else x.
(** Lines 508-543 [fill_in]; [c_0] is cos(th_0); every other polarisation is treated as p. *)
Definition fill_in (pol : string) (n c kz v w n_0 c_0 : C) (d : R) : afn :=
  let a1 := cut30 (2 * Im kz) in
  let a3 := cut30 (2 * Re kz) in
  if String.eqb pol "s" then
    let temp := (Im (n * c * kz)%C / Re (n_0 * c_0)%C) in
    Afn (temp * Cmod w ^ 2) (temp * Cmod v ^ 2) (temp * v * Cconj w)%C a1 a3 d
  else
    let temp := (2 * Im kz * Re (n * Cconj c)%C / Re (n_0 * Cconj c_0)%C) in
    Afn (temp * Cmod w ^ 2) (temp * Cmod v ^ 2)
        (v * Cconj w * (-2 * Re kz * Im (n * Cconj c)%C / Re (n_0 * Cconj c_0)%C)%R)%C a1 a3 d.
(** Lines 569-571 [run] with a scalar depth (complex-valued). *)
Definition run_scalar (f : afn) (z : R) : C :=
  ((f_A1 f * exp (f_a1 f * z))%R + (f_A2 f * exp (- f_a1 f * z))%R
   + f_A3 f * cexp (Ci * (f_a3 f * z)%R) + Cconj (f_A3 f) * cexp (- (Ci * (f_a3 f * z)%R)))%C.
(** Lines 560-567 [run] with an array of depths, one entry: part1 is dropped when A1 is
    below 1e-100. *)
Definition run_array (f : afn) (z : R) : C :=
  ((if Rlt_dec (f_A1 f) (/ 10 ^ 100) then RtoC 0 else RtoC (f_A1 f * exp (f_a1 f * z))%R)
   + (f_A2 f * exp (- f_a1 f * z))%R
   + f_A3 f * cexp (Ci * (f_a3 f * z)%R) + Cconj (f_A3 f) * cexp (- (Ci * (f_a3 f * z)%R)))%C.
(** Lines 575-588 [flip]. Multiplying by a zero amplitude is zero for exact numbers, so
    lines 583 and 585 have no separate effect. *)
Definition flip (f : afn) : afn :=
  Afn (f_A2 f * exp (- f_a1 f * f_d f)) (f_A1 f * exp (f_a1 f * f_d f))
      (Cconj (f_A3 f * cexp (Ci * (f_a3 f * f_d f)%R))%C) (f_a1 f) (f_a3 f) (f_d f).
(** Lines 590-600 [scale]; no nan in exact arithmetic. *)
Definition scale (k : R) (f : afn) : afn :=
  Afn (f_A1 f * k) (f_A2 f * k) (f_A3 f * k)%C (f_a1 f) (f_a3 f) (f_d f).
(** With [scale], tmm_core_vec.py, lines 590-600. *)
Definition add1 (f b : afn) : afn :=
  Afn (f_A1 f + f_A1 b) (f_A2 f + f_A2 b) (f_A3 f + f_A3 b)%C (f_a1 f) (f_a3 f) (f_d f).
(** Lines 602-613 [add], over the whole array of wavelengths: refused only when the
    exponents differ at every wavelength. *)
Definition differ (g : afn -> R) (fb : afn * afn) : bool :=
  if Req_EM_T (g (snd fb)) (g (fst fb)) then false else true.
(** With [differ], tmm_core_vec.py, lines 602-613. *)
Definition add (fs bs : list afn) : res (list afn) :=
  if forallb (differ f_a1) (combine fs bs) || forallb (differ f_a3) (combine fs bs)
  then Err ValueError
  else Ok (map (fun fb => add1 (fst fb) (snd fb)) (combine fs bs)).

(** * inc_group_layers, tmm_core_vec.py:646-754 *)
Section Group.
Context {N D : Type}.
(** The loop variables of lines 697-707. [g_open] is [Some w] while a stack is in progress,
    [w] being [within_stack_index]. *)
Record gstate : Type := GState {
  g_inc : nat; g_stack : nat; g_open : option nat;
  g_stack_d : list (list (option D)); g_stack_n : list (list N);
  g_ongoing_d : list (option D); g_ongoing_n : list N;
  g_all_from_inc : list nat; g_inc_from_all : list (option nat);
  g_all_from_stack : list (list nat); g_stack_from_all : list (option (nat * nat));
  g_inc_from_stack : list nat; g_stack_from_inc : list (option nat) }.
(** With [gstate], tmm_core_vec.py, lines 697-707. *)
Definition g0 : gstate := GState 0 0 None [] [] [] [] [] [] [] [] [] [].
(** [l[-1].append(x)] *)
Fixpoint append_last {A} (l : list (list A)) (x : A) : list (list A) :=
  match l with
  | [] => []
  | [a] => [a ++ [x]]
  | a :: r => a :: append_last r x
  end.
(** One turn of the loop, lines 708-743; [prev] is [n_list[alllayer_index - 1]]. A thickness
    is [Some d] or [None] for inf. *)
Definition group_step (prev : N) (k : nat) (n : N) (d : option D) (c : string) (s : gstate) : res gstate :=
  let '(GState inc st op sd sn od on afi ifa afs sfa ifs sfi) := s in
  if String.eqb c "c" then
    match op with
    | None =>
        Ok (GState inc st (Some 1%nat) sd sn [None; d] [prev; n] afi (ifa ++ [None])
              (afs ++ [[(k - 1)%nat; k]]) (sfa ++ [Some (st, 1%nat)]) (ifs ++ [(inc - 1)%nat]) sfi)
    | Some w =>
        Ok (GState inc st (Some (w + 1)%nat) sd sn (od ++ [d]) (on ++ [n]) afi (ifa ++ [None])
              (append_last afs k) (sfa ++ [Some (st, (w + 1)%nat)]) ifs sfi)
    end
  else if String.eqb c "i" then
    match op with
    | None =>
        Ok (GState (inc + 1) st None sd sn od on (afi ++ [k]) (ifa ++ [Some inc]) afs
              (sfa ++ [None]) ifs (sfi ++ [None]))
    | Some _ =>
        Ok (GState (inc + 1) (st + 1) None (sd ++ [od ++ [None]]) (sn ++ [on ++ [n]]) od on
              (afi ++ [k]) (ifa ++ [Some inc]) (append_last afs k) (sfa ++ [None]) ifs (sfi ++ [Some st]))
    end
  else Err ValueError.
(** With [group_step], tmm_core_vec.py, lines 708-743. *)
Fixpoint group_loop (prev : N) (k : nat) (ls : list (N * option D * string)) (s : gstate) : res gstate :=
  match ls with
  | [] => Ok s
  | (n, d, c) :: r => let! s' := group_step prev k n d c s in group_loop n (S k) r s'
  end.
(** With [group_step], tmm_core_vec.py, lines 708-743. *)
Definition is_inf_d (d : option (option D)) : bool := match d with Some None => true | _ => false end.
(** With [group_step], tmm_core_vec.py, lines 708-743. *)
Definition is_i (c : option string) : bool := match c with Some s => String.eqb s "i" | None => false end.
(** Lines 689-696 the checks (an empty d_list or c_list is an IndexError), then the loop.
    [n_list[alllayer_index - 1]] is never taken at index 0 because c_list starts with 'i'. *)
Definition inc_group_layers (ns : list N) (ds : list (option D)) (cs : list string) : res gstate :=
  match ds, cs with
  | [], _ | _, [] => Err IndexError
  | _, _ =>
      if negb (is_inf_d (hd_error ds) && is_inf_d (hd_error (rev ds))) then Err ValueError
      else if negb (is_i (hd_error cs) && is_i (hd_error (rev cs))) then Err ValueError
      else if negb ((length ns =? length ds)%nat && (length ds =? length cs)%nat) then Err ValueError
      else match ns with
           | [] => Err IndexError
           | n0 :: _ => group_loop n0 0 (combine (combine ns ds) cs) g0
           end
  end.
End Group.
