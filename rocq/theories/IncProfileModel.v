(** Model of the absorption profile of partly incoherent stacks:
    solcore/absorption_calculator/tmm_core_vec.py:1045-1101 and the incoherent branches of
    transfer_matrix.py:655-815 ([calculate_absorption_profile]). One wavelength at a time. *)
From Coq Require Import Reals String List Arith Bool.
From Coquelicot Require Import Complex.
From Verif Require Import Common NpModel TmmModel TmmLayersModel IncModel StackModel RatModel.
From Coq Require Import List.
Import ListNotations.
Open Scope R_scope.
Open Scope list_scope.

(** * tmm_core_vec.py:508-543 [fill_in(coh_tmm_data, layer)] *)
(** The lookups of lines 515-523. A layer of a coherent stack has a finite thickness; the
    infinite one of an outer medium is never asked for and is 0 here. *)
Definition fill_from (d : coh_data) (i : nat) : afn :=
  let v := nth i (cd_vw d) (RtoC 0, RtoC 0) in
  fill_in (cd_pol d) (nth i (cd_n d) (RtoC 0)) (nth i (cd_cos d) (RtoC 0)) (nth i (cd_kz d) (RtoC 0))
    (fst v) (snd v) (hd (RtoC 0) (cd_n d)) (cd_cos0 d)
    (match nth i (cd_d d) None with Some x => x | None => 0 end).

(** * tmm_core_vec.py:1045-1068 [inc_find_absorp_analytic_fn] *)
(** [-1 - withinstackindex] counts from the back of the lists of the reversed stack. *)
Definition inc_find_fn (layer : nat) (D : inc_data) : res afn :=
  match nth_error (g_stack_from_all (id_group D)) layer with
  | None => Err IndexError
  | Some None => Err ValueError
  | Some (Some (j, w)) =>
      let FB := nth j (id_FB D) (0, 0) in
      let b := nth j (id_bcoh D) no_data in
      let forward := scale (fst FB) (fill_from (nth j (id_coh D) no_data) w) in
      let back := flip (scale (snd FB) (fill_from b (length (cd_n b) - 1 - w))) in
      let! s := add [forward] [back] in
      Ok (hd (Afn 0 0 0 0 0 0) s)
  end.

(** * tmm_core_vec.py:1071-1101 [inc_position_resolved] *)
(** Line 1087: the distinct layers. CPython iterates over a set of small integers in
    ascending order as long as they are 1, 2, ... without a gap; that order is assumed. *)
Definition asked (layers : list nat) (k : nat) : bool := existsb (Nat.eqb k) layers.
(** The number [i] that line 1091 gives to a layer. *)
Definition place (layers : list nat) (k : nat) : nat := length (filter (asked layers) (seq 0 k)).
(** Line 1089: [1 - np.cumsum(A_per_layer)] at the index [i]. *)
Definition reaching (A : list R) (i : nat) : R := 1 - fold_left Rplus (firstn (S i) A) 0.
(** [max(dist[layer == l])] of line 1119. *)
Definition deepest (samples : list (nat * R)) (k : nat) : R :=
  match map snd (filter (fun s => Nat.eqb (fst s) k) samples) with
  | [] => 0
  | x :: r => fold_left Rmax r x
  end.
(** Lines 1091-1101. Every turn of the loop writes the columns of its own layer, so the result
    is given sample by sample. [alphas] holds one number per layer (in 1/nm). *)
Definition inc_sample (samples : list (nat * R)) (D : inc_data) (A : list R) (cs : list string)
  (alphas : list R) (thr : R) (s : nat * R) : res R :=
  let k := fst s in
  let i := place (map fst samples) k in
  match nth_error cs k with
  | None => Err IndexError
  | Some c =>
      let! x := (if String.eqb c "c" then
                   let! f := inc_find_fn k D in Ok (Re (run_array f (snd s)))
                 else
                   match nth_error alphas k with
                   | None => Err IndexError
                   | Some a => Ok (beer_lambert (a * 10 ^ 9) (reaching A i) (deepest samples k * / 10 ^ 9)
                                     (nth k A 0) (snd s * / 10 ^ 9))
                   end) in
      Ok (if Rlt_dec (reaching A i) thr then 0 else x)
  end.
(** With [inc_sample], lines 1091-1101. *)
Definition inc_position_resolved (samples : list (nat * R)) (D : inc_data) (cs : list string)
  (alphas : list R) (thr : R) : res (list R) :=
  let! A := inc_absorp_in_each_layer D in
  mapRR (inc_sample samples D A cs alphas thr) samples.

(** * transfer_matrix.py:740-815, incoherent *)
(** Line 770: [4 * np.pi * np.imag(stack.get_indices(wavelength)) / wavelength]. *)
Definition alphas_of (wl : R) (ns : list C) : list R := map (fun n => 4 * PI * Im n / wl) ns.
(** Lines 756 and 766-776, 796-815, with the coherency list of lines 741-745 ([padded]); [zs]
    are the positions in nm. *)
Definition inc_profile (noback : bool) (ns : list C) (ds : list (option R)) (wl : R) (cl : list string)
  (r : rat) (thr : R) (zs : list R) : res (list R) :=
  let! samples := mapRR (find_in_structure_with_inf ds) zs in
  match ra_out r with
  | OutInc d => inc_position_resolved samples d (padded noback cl) (alphas_of wl ns) thr
  | OutInc2 s p =>
      let! a := inc_position_resolved samples s (padded noback cl) (alphas_of wl ns) thr in
      let! b := inc_position_resolved samples p (padded noback cl) (alphas_of wl ns) thr in
      Ok (map (fun ab => / 2 * (fst ab + snd ab)) (combine a b))
  | _ => Err NotImplementedError
  end.
