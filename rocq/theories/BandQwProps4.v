(** C180, continued: the zero of energies of electrons. *)
From Coq Require Import Reals List Bool Arith Lia Lra.
From Coquelicot Require Import Complex.
From Verif Require Import Common PhysConst InterpModel NpModel SchrodModel SchrodProps BandQwModel BandQwProps3.
From Coq Require Import List.
Import ListNotations.
Open Scope R_scope.

Lemma list_min_shift l c : l <> [] -> list_min (map (fun v => v + c) l) = list_min l + c.
Proof.
  intros h. assert (h' : map (fun v => v + c) l <> []) by (destruct l; [contradiction|discriminate]).
  apply Rle_antisym.
  - apply list_min_le. apply in_map_iff. exists (list_min l). split; [reflexivity|apply list_min_in, h].
  - pose proof (list_min_in _ h') as hi. apply in_map_iff in hi as (v & e & hv). rewrite <- e. pose proof (list_min_le l v hv). lra.
Qed.
Lemma par_fe_shift z l c : l <> [] -> par_fe z (map (fun v => v + c) l) = par_fe z l.
Proof.
  intros h. unfold par_fe. rewrite (list_min_shift l c h), map_map. apply map_ext. intros v. f_equal. lra.
Qed.
(** Potentials higher by a constant give the same wave functions with energies higher by it. *)
Theorem C180_electron_zero : forall eigs w kt n0 n1 quasi c, q_Ve w <> [] ->
  let w' := Well (q_x w) (map (fun v => v + c) (q_Ve w)) (q_me w) (q_Vhh w) (q_Vlh w) (q_g1 w) (q_g2 w) (q_g3 w) in
  solve_electrons eigs w' kt n0 n1 quasi =
    match solve_electrons eigs w kt n0 n1 quasi with Ok l => Ok (map (fun p => (fst p + c, snd p)) l) | Err x => Err x end.
Proof.
  intros eigs w kt n0 n1 quasi c h w'. unfold solve_electrons, w'. cbn [q_x q_Ve q_me]. cbv zeta.
  assert (em : par_matrix kt (q_x w) (map (fun v => v + c) (q_Ve w)) (q_me w) = par_matrix kt (q_x w) (q_Ve w) (q_me w)).
  { unfold par_matrix. rewrite (par_fe_shift _ _ c h), map_length. reflexivity. }
  rewrite em, (par_fe_shift _ _ c h), (list_min_shift _ c h), map_length.
  destruct (limit _ quasi _) as [lim|x]; [|reflexivity]. cbn [bindR]. rewrite map_map. f_equal. apply map_ext. intros p. cbn [fst snd]. f_equal. lra.
Qed.
(** A solver's level at -1 in its own units is found, one of these units below the bottom of the band. *)
Example C180_electron_zero_ex : exists psi, let w := Well [0; 1] [3; 3] [1; 1] [] [] [] [] [] in
  q_Ve w <> [] /\ solve_electrons (fun _ _ _ _ => [(RtoC (-1), [RtoC 1; RtoC 1])]) w 0 1 1 0 = Ok [(3 - E0 [0; 1], psi)].
Proof.
  eexists. cbv zeta. cbn [q_Ve q_x q_me]. split; [discriminate|].
  unfold solve_electrons, limit. cbn [q_Ve q_x q_me]. destruct (Rlt_dec 0 0) as [h|h]; [exfalso; lra|]. cbn [bindR].
  assert (em : list_min [3; 3] = 3) by (cbn; apply Rmin_left; lra).
  assert (ex : SchrodModel.list_max (par_fe [0; 1] [3; 3]) = 0).
  { unfold par_fe. rewrite em. cbn [map SchrodModel.list_max fold_left]. replace (3 - 3) with 0 by ring. unfold Rdiv. rewrite Rmult_0_l. apply Rmax_left. lra. }
  rewrite ex. unfold confined. cbn [firstn filter fst]. unfold cltc. cbn [RtoC fst snd].
  destruct (Rlt_dec (-1) (0 + 0 * q / E0 [0; 1])) as [_|n]; [|destruct n; unfold Rdiv; rewrite !Rmult_0_l; lra].
  cbn [map fst snd]. rewrite em. unfold RtoC. cbn [fst snd]. replace (-1 * E0 [0; 1] + 3) with (3 - E0 [0; 1]) by ring. reflexivity.
Qed.
