(** Properties of the SOPRA library, continued: temperatures (C144), materials (C145) and
    the coefficient of radiative recombination (C146). *)
From Coq Require Import Reals String Ascii List Bool Arith Lia Lra Psatz Permutation.
From Coquelicot Require Import Coquelicot.
From Verif Require Import Common InterpModel InterpProps NpModel PhysConst SopraModel SopraProps.
From Coq Require Import List.
Import ListNotations.
Open Scope string_scope.
Open Scope R_scope.
Open Scope list_scope.

(** * Names that occur *)

Lemma no_sign_last p : last p " "%char <> "-"%char -> last p " "%char <> "+"%char -> no_sign p.
Proof. intros A B p'. split; intros ->; rewrite last_last in *; contradiction. Qed.
Lemma wf_of p fo vs : Forall2 (fun f v => named p v (fst f)) (filter listed fo) vs -> NoDup vs -> wf p fo.
Proof.
  intros F D. split.
  - intros f I L. assert (J : In f (filter listed fo)) by now apply filter_In.
    clear I D. induction F as [|g v l vs' H F IH]; [contradiction|]. destruct J as [->|J]; [now exists v|]. now apply IH.
  - replace (map (fun f => num (fst f)) (filter listed fo)) with (map INR vs).
    + apply FinFun.Injective_map_NoDup; [intros a b E; now apply INR_eq|assumption].
    + clear D. induction F as [|g v l vs' H F IH]; [reflexivity|]. cbn [map]. f_equal; [symmetry; now apply (num_named p)|assumption].
Qed.
(** Files as they are in the library: their prefix, number and the rest. *)
Ltac name_it d r :=
  exists (list_ascii_of_string d), (list_ascii_of_string r);
  split; [reflexivity|]; split; [repeat constructor|]; split; [apply no_sign_last; discriminate|];
  split; [discriminate|]; split; [repeat constructor|]; split; [reflexivity|]; split; [reflexivity|];
  let E := fresh in intros ? E; injection E as <-; reflexivity || discriminate E.

(** One-row tables. *)
Definition row (n k : R) : dtable := [(500, n, k)].
Lemma row_n n k l : n_at (row n k) l = n.
Proof.
  unfold n_at, row, t_wav, t_n, np_interp. cbn [map fst snd count_le length]. destruct (Rle_dec 500 l); reflexivity.
Qed.
Lemma row_k n k l : k_at (row n k) l = k.
Proof.
  unfold k_at, row, t_wav, t_k, np_interp. cbn [map fst snd count_le length]. destruct (Rle_dec 500 l); reflexivity.
Qed.

(** The folder ALGAAS_AL in the order of the file names, with a file of the system. *)
Definition algaas : folder :=
  [(".DS_Store", []); ("ALGAAS00.MAT", row 4 2); ("ALGAAS100.MAT", row 2 0); ("ALGAAS30.MAT", row 3 1)].
Lemma algaas_wf : wf (list_ascii_of_string "ALGAAS") algaas.
Proof.
  apply wf_of with [0; 100; 30]%nat.
  - cbn [algaas filter listed fst String.index prefix]. constructor; [|constructor; [|constructor; [|constructor]]]; cbn [fst].
    + name_it "00" ".MAT".
    + name_it "100" ".MAT".
    + name_it "30" ".MAT".
  - repeat constructor; simpl; intuition discriminate.
Qed.
Lemma algaas_num : num "ALGAAS00.MAT" = INR 0 /\ num "ALGAAS30.MAT" = INR 30 /\ num "ALGAAS100.MAT" = INR 100.
Proof.
  split; [|split]; apply (num_named (list_ascii_of_string "ALGAAS")); [name_it "00" ".MAT"|name_it "30" ".MAT"|name_it "100" ".MAT"].
Qed.
Lemma INR_30 : INR 30 = 30. Proof. rewrite INR_IZR_INZ. reflexivity. Qed.
Lemma INR_100 : INR 100 = 100. Proof. rewrite INR_IZR_INZ. reflexivity. Qed.

(** Listed in another order the folder gives the same, here half way between the files of
    30 and 100 per cent. *)
Example C144_example : Permutation algaas (rev algaas) /\
  load_set (rev algaas) (Some [400; 700]) 65 = Ok ([400; 700], [5 / 2; 5 / 2], [1 / 2; 1 / 2]) /\
  load_set algaas (Some [400]) (num "ALGAAS30.MAT") = Ok ([400], [3], [1]) /\
  load_set algaas (Some [400]) 120 = Ok ([400], [2], [0]).
Proof.
  destruct algaas_num as (N0 & N30 & N100). rewrite INR_30 in N30. rewrite INR_100 in N100. cbn [INR] in N0.
  assert (P : Permutation algaas (rev algaas)) by apply Permutation_rev.
  split; [exact P|]. rewrite <- (C144_order _ _ _ (Some [400; 700]) 65 algaas_wf P).
  assert (All : forall f, In f algaas -> listed f = true -> num (fst f) = 0 \/ num (fst f) = 30 \/ num (fst f) = 100).
  { intros f I Li. simpl in I. destruct I as [<-|[<-|[<-|[<-|[]]]]]; [discriminate|..]; cbn [fst]; auto. }
  split; [|split].
  - edestruct (C144_between _ algaas "ALGAAS30.MAT" (row 3 1) "ALGAAS100.MAT" (row 2 0) [400; 700] 65 algaas_wf) as [_ E];
      [simpl; tauto|simpl; tauto|reflexivity|reflexivity|lra| |lra|].
    { intros f I Li H. destruct (All f I Li) as [E|[E|E]]; rewrite E in H; lra. }
    rewrite E. cbn [map]. rewrite !row_n, !row_k, N30, N100. replace ((65 - 30) / (100 - 30)) with (1 / 2) by lra.
    f_equal. f_equal; [f_equal|]; repeat (apply f_equal2; [lra|]); reflexivity.
  - rewrite (C144_file _ _ _ (row 3 1) _ algaas_wf) by (simpl; tauto). cbn [map]. now rewrite row_n, row_k.
  - rewrite (C144_outside _ _ "ALGAAS100.MAT" (row 2 0) _ _ algaas_wf); [|simpl; tauto|reflexivity|].
    + cbn [map]. now rewrite row_n, row_k.
    + right. rewrite N100. split; [|lra]. intros f I Li. destruct (All f I Li) as [E|[E|E]]; rewrite E; lra.
Qed.

(** * Temperatures *)

Section Temp.
Context (dir : string -> option folder).
(** C144, temperature, as far as it holds: the data of a file (its number in degrees
    Celsius) are returned 273.19 K above its number, not 273.15 K.  At the file's own
    temperature the answer is off by 0.04 K towards the next lower file; only the lowest
    file is returned at its own temperature. *)
Theorem C144_temperature_partial : forall fname p fo s t L,
  dir (fname ++ "_T") = Some fo -> wf p fo -> In (s, t) fo -> listed (s, t) = true ->
  load_temperature dir fname (Some L) (num s + 273.19) = Ok (L, map (n_at t) L, map (k_at t) L) /\
  ((forall f, In f fo -> listed f = true -> num s <= num (fst f)) ->
   load_temperature dir fname (Some L) (num s + 273.15) = Ok (L, map (n_at t) L, map (k_at t) L)) /\
  (forall s' t', In (s', t') fo -> listed (s', t') = true -> num s' + 0.04 <= num s ->
     (forall f, In f fo -> listed f = true -> ~ num s' < num (fst f) < num s) ->
     load_temperature dir fname (Some L) (num s + 273.15) =
       Ok (L, map (fun l => n_at t l - 0.04 / (num s - num s') * (n_at t l - n_at t' l)) L,
              map (fun l => k_at t l - 0.04 / (num s - num s') * (k_at t l - k_at t' l)) L)).
Proof.
  intros fname p fo s t L D W I Li. unfold load_temperature. rewrite D. split; [|split].
  - replace (num s + 273.19 - 273.19) with (num s) by lra. now apply (C144_file p).
  - intros Mi. apply (C144_outside p fo s t L _ W I Li). left. split; [assumption|lra].
  - intros s' t' I' Li' G Nb.
    destruct (C144_between p fo s' t' s t L (num s + 273.15 - 273.19) W I' I Li' Li ltac:(lra) Nb ltac:(lra)) as [_ E].
    rewrite E. assert (0 < num s - num s') by lra. set (d := num s - num s') in *.
    replace (num s + 273.15 - 273.19 - num s') with (d - 0.04) by (unfold d; lra). clearbody d.
    f_equal. f_equal; [f_equal|]; apply map_ext; intros l; field; lra.
Qed.
End Temp.

(** Two files of the folder SICR_T. *)
Definition sicr : folder := [("SICR-T020.MAT", row 1 0); ("SICR-T100.MAT", row 3 1)].
Lemma sicr_wf : wf (list_ascii_of_string "SICR-T") sicr.
Proof.
  apply wf_of with [20; 100]%nat.
  - cbn [sicr filter listed fst String.index prefix]. constructor; [|constructor; [|constructor]]; cbn [fst].
    + name_it "020" ".MAT".
    + name_it "100" ".MAT".
  - repeat constructor; simpl; intuition discriminate.
Qed.
Lemma sicr_num : num "SICR-T020.MAT" = 20 /\ num "SICR-T100.MAT" = 100.
Proof.
  split; [transitivity (INR 20)|transitivity (INR 100)]; try (rewrite INR_IZR_INZ; reflexivity);
    apply (num_named (list_ascii_of_string "SICR-T")); [name_it "020" ".MAT"|name_it "100" ".MAT"].
Qed.
Definition sicr_dir (s : string) : option folder := if String.eqb s "SICR_T" then Some sicr else None.
(** The claim that the temperature of a file gives the data of the file fails: at 373.15 K
    (100 degrees Celsius) the index is not that of the file of 100 degrees. *)
Theorem C144_temperature_refuted : exists dir fname p fo s t,
  dir (fname ++ "_T")%string = Some fo /\ wf p fo /\ In (s, t) fo /\ listed (s, t) = true /\ num s = 100 /\
  load_temperature dir fname (Some [500]) 373.15 = Ok ([500], [2999 / 1000], [9995 / 10000]) /\
  (map (n_at t) [500], map (k_at t) [500]) = ([3], [1]).
Proof.
  exists sicr_dir, "SICR", (list_ascii_of_string "SICR-T"), sicr, "SICR-T100.MAT", (row 3 1).
  destruct sicr_num as [N20 N100].
  split; [reflexivity|]. split; [exact sicr_wf|]. split; [simpl; tauto|]. split; [reflexivity|]. split; [exact N100|]. split.
  - destruct (C144_temperature_partial sicr_dir "SICR" _ sicr "SICR-T100.MAT" (row 3 1) [500] eq_refl sicr_wf ltac:(simpl; tauto) eq_refl) as (_ & _ & T).
    specialize (T "SICR-T020.MAT" (row 1 0) ltac:(simpl; tauto) eq_refl). rewrite N20, N100 in T.
    replace 373.15 with (100 + 273.15) by lra. rewrite T; [|lra|].
    + cbn [map]. rewrite !row_n, !row_k. replace (100 - 20) with 80 by lra.
      f_equal. f_equal; [f_equal|]; repeat (apply f_equal2; [lra|]); reflexivity.
    + intros f I _. simpl in I. destruct I as [<-|[<-|[]]]; cbn [fst]; rewrite ?N20, ?N100; lra.
  - cbn [map]. now rewrite row_n, row_k.
Qed.

(** * Materials *)

Lemma count_le_scale a xp v : 0 < a -> count_le (map (fun w => w * a) xp) (v * a) = count_le xp v.
Proof.
  intros Ha. induction xp as [|x xp IH]; [reflexivity|]. cbn [map count_le]. rewrite IH.
  destruct (Rle_dec (x * a) (v * a)) as [H|H], (Rle_dec x v) as [K|K]; try reflexivity; exfalso.
  - apply K. now apply Rmult_le_reg_r with a.
  - apply H. apply Rmult_le_compat_r; lra.
Qed.
Lemma np_interp_scale a xp fp v : 0 < a -> nondecreasing xp -> np_interp (map (fun w => w * a) xp) fp (v * a) = np_interp xp fp v.
Proof.
  intros Ha Hx. unfold np_interp. rewrite count_le_scale, map_length by assumption.
  destruct (Nat.eqb_spec (count_le xp v) 0); [reflexivity|]. destruct (Nat.eqb_spec (count_le xp v) (length xp)); [reflexivity|].
  destruct (count_le_spec xp v Hx) as (C1 & C2 & C3). set (k := count_le xp v) in *.
  assert (A1 : at_ xp (k - 1) <= v) by (apply C2; lia). assert (A2 : v < at_ xp k) by (apply C3; lia).
  assert (E : forall i, (i < length xp)%nat -> at_ (map (fun w => w * a) xp) i = at_ xp i * a).
  { intros i Hi. rewrite (nth_indep _ 0 (0 * a)) by (rewrite map_length; lia). apply (map_nth (fun w => w * a)). }
  rewrite !E by lia. field. repeat split; try lra. assert (0 < (at_ xp k - at_ xp (k - 1)) * a) by (apply Rmult_lt_0_compat; lra). lra.
Qed.

Section Mats.
Context (db : list string) (file : string -> option dtable) (dir : string -> option folder) (compounds : list (string * string)).
Notation sopra_mat := (sopra_mat db compounds).
Notation mat_n := (mat_n file dir).
Notation mat_k := (mat_k file dir).

(** C145, plain materials: at wavelengths in m the n and k of the file at the wavelengths
    in nm; whatever case the name is written in. *)
Theorem C145_plain : forall name kw t x m, sopra_mat name kw = Ok m -> compound_x compounds name = None ->
  file (upper name) = Some t -> nondecreasing (t_wav t) ->
  mat_n m x = Ok (map (fun l => n_at t (l * 10 ^ 9)) x) /\ mat_k m x = Ok (map (fun l => k_at t (l * 10 ^ 9)) x).
Proof.
  intros name kw t x m M X F Hw. unfold SopraModel.sopra_mat, sopra in M. destruct (existsb _ db); [|discriminate]. cbn [bindR] in M.
  rewrite X in M. injection M as <-. unfold SopraModel.mat_n, SopraModel.mat_k, interpolated, load. cbn [s_x s_file]. rewrite F. cbn [fst snd].
  assert (K : forall col l, np_interp (map (fun w => w * (1 / 10 ^ 9)) (t_wav t)) col l = np_interp (t_wav t) col (l * 10 ^ 9)).
  { intros col l. rewrite <- (np_interp_scale (1 / 10 ^ 9) (t_wav t) col (l * 10 ^ 9)) by (lra || assumption). f_equal. field. }
  split; f_equal; apply map_ext; intros l; apply K.
Qed.

(** C145, alloys: at the composition of a file (its number in per cent) the n and k of that
    file; in every case the data set at the composition. *)
Theorem C145_alloy : forall name e x f m wl p fo, sopra_mat name [(e, x)] = Ok m -> compound_x compounds name = Some e ->
  dir (upper name ++ "_" ++ upper e) = Some fo -> wf p fo -> In f fo -> listed f = true -> num (fst f) = 100 * x ->
  mat_n m wl = Ok (map (fun l => n_at (snd f) (l * 10 ^ 9)) wl) /\
  mat_k m wl = Ok (map (fun l => k_at (snd f) (l * 10 ^ 9)) wl).
Proof.
  intros name e x [s t] m wl p fo M X D W I Li N. unfold SopraModel.sopra_mat, sopra in M. destruct (existsb _ db); [|discriminate]. cbn [bindR] in M.
  rewrite X in M. cbn [find fst] in M. rewrite String.eqb_refl in M. injection M as <-. cbn [snd] in *.
  unfold SopraModel.mat_n, SopraModel.mat_k, interpolated. cbn [s_x s_file s_main]. unfold load_composition. cbn [rev app].
  rewrite D. cbn [fst] in N. replace (x * 100) with (num s) by lra. rewrite (C144_file p fo s t _ W I Li). cbn [bindR fst snd].
  rewrite !map_map. split; reflexivity.
Qed.

(** C145, absorption: where k is not negative neither is alpha; the energy of a wavelength
    gives the same; and plain materials agree with the library's own alpha. *)
Theorem C145_absorption : forall m x k, mat_k m x = Ok k -> length k = length x ->
  Forall (fun v => 0 <= v) k -> Forall (fun l => 0 < l) x ->
  exists a, mat_alpha file dir m x = Ok a /\ Forall (fun v => 0 <= v) a /\
    mat_alphaE file dir m (map (fun l => h * c / l) x) = Ok a /\
    forall i, (i < length x)%nat -> at_ a i * at_ x i = 4 * PI * at_ k i.
Proof.
  intros m x k E Ln Pk Px. unfold mat_alpha at 1. rewrite E. cbn [bindR].
  eexists. split; [reflexivity|]. split; [|split].
  - rewrite Forall_forall. intros v I. apply in_map_iff in I as ([l kv] & <- & I). cbn [fst snd].
    pose proof (in_combine_l _ _ _ _ I) as Il. pose proof (in_combine_r _ _ _ _ I) as Ir.
    rewrite Forall_forall in Pk, Px. specialize (Pk _ Ir). specialize (Px _ Il). pose proof PI_RGT_0.
    apply Rmult_le_pos; [nra|left; now apply Rinv_0_lt_compat].
  - unfold mat_alphaE. rewrite map_map. replace (map (fun l => h * c / (h * c / l)) x) with x.
    + unfold mat_alpha. now rewrite E.
    + symmetry. rewrite <- (map_id x) at 2. apply map_ext_in. intros l I. rewrite Forall_forall in Px. specialize (Px l I).
      pose proof h_pos. pose proof c_pos. field. repeat split; lra.
  - intros i Hi. rewrite (nth_indep _ 0 ((fun p => 4 * PI * snd p / fst p) (0, 0))) by (rewrite map_length, combine_length; lia).
    rewrite (map_nth (fun p => 4 * PI * snd p / fst p)), combine_nth by lia. cbn [fst snd].
    assert (0 < at_ x i) by (rewrite Forall_forall in Px; apply Px, nth_In; assumption). field. lra.
Qed.
Theorem C145_alpha : forall name kw t x m, sopra_mat name kw = Ok m -> compound_x compounds name = None ->
  file (upper name) = Some t -> nondecreasing (t_wav t) -> Forall (fun l => 0 < l) x ->
  exists a, mat_alpha file dir m x = Ok a /\
    load_alpha file (upper name) (Some (map (fun l => l * 10 ^ 9) x)) = Ok (map (fun l => l * 10 ^ 9) x, a).
Proof.
  intros name kw t x m M X F Hw Px. unfold mat_alpha. destruct (C145_plain name kw t x m M X F Hw) as [_ ->]. cbn [bindR].
  eexists. split; [reflexivity|]. unfold load_alpha, load_k, load. rewrite F. cbn [bindR fst snd]. f_equal. f_equal.
  rewrite map_map. unfold k_at. clear M. induction Px as [|l x Pl Px IH]; [reflexivity|]. cbn [map combine fst snd]. f_equal; [|exact IH].
  field. lra.
Qed.
End Mats.

(** A library with one alloy and one plain material. *)
Definition lib_db : list string := ["AG"; "ALGAAS"; "SIPOLY"; "ZNSETE"].
Definition znsete : folder :=
  [("ZNSETE0.MAT", row 1 0); ("ZNSETE1.MAT", row 2 1); ("ZNSETE3.MAT", row 3 2); ("ZNSETE5.MAT", row 4 3);
   ("ZNSETE7.MAT", row 5 4); ("ZNSETE9.MAT", row 6 5); ("ZNSETE10.MAT", row 7 6)].
Definition lib_dir (s : string) : option folder :=
  if String.eqb s "ALGAAS_AL" then Some algaas
  else if String.eqb s "ZNSETE_TE" then Some znsete
  else if String.eqb s "SIPOLY_X" then Some [("SIPOLY10.MAT", row 3 1)] else None.
Definition lib_file (s : string) : option dtable := if String.eqb s "AG" then Some (row 1 4) else None.
Definition lib_compounds := [("AlGaAs", "Al"); ("SiPOLY", "Poly"); ("ZnSeTe", "Te")].

Example C145_example : exists m m',
  sopra_mat lib_db lib_compounds "Ag" [] = Ok m /\ compound_x lib_compounds "Ag" = None /\ lib_file (upper "Ag") = Some (row 1 4) /\
  mat_k lib_file lib_dir m [1 / 10 ^ 6] = Ok [4] /\
  sopra_mat lib_db lib_compounds "AlGaAs" [("Al", 0.3)] = Ok m' /\ mat_n lib_file lib_dir m' [1 / 10 ^ 6] = Ok [3].
Proof.
  do 2 eexists. split; [reflexivity|]. split; [reflexivity|]. split; [reflexivity|]. split.
  - destruct (C145_plain lib_db lib_file lib_dir lib_compounds "Ag" [] (row 1 4) [1 / 10 ^ 6] _ eq_refl eq_refl eq_refl) as [_ E].
    + intros i j H. cbn [t_wav row map fst length] in H. assert (i = 0 /\ j = 0)%nat as [-> ->] by lia. lra.
    + rewrite E. cbn [map]. now rewrite row_k.
  - split; [reflexivity|].
    destruct (C145_alloy lib_db lib_file lib_dir lib_compounds "AlGaAs" "Al" 0.3 ("ALGAAS30.MAT", row 3 1) _ [1 / 10 ^ 6]
                _ algaas eq_refl eq_refl eq_refl algaas_wf) as [E _]; [simpl; tauto|reflexivity| |].
    + cbn [fst]. destruct algaas_num as (_ & -> & _). rewrite INR_30. lra.
    + rewrite E. cbn [map snd]. now rewrite row_n.
Qed.

(** The name of an alloy is found in any case, its composition is not: the same alloy
    written in capitals is a material like vacuum, at any composition given. *)
Theorem C145_case_refuted : exists db file dir compounds,
  compounds = [("AlGaAs", "Al")] /\ dir "ALGAAS_AL" = Some algaas /\ file "ALGAAS" = None /\
  exists m m', sopra_mat db compounds "AlGaAs" [("Al", 0.3)] = Ok m /\ sopra_mat db compounds "ALGAAS" [("Al", 0.3)] = Ok m' /\
    mat_n file dir m [1 / 10 ^ 6] = Ok [3] /\ mat_k file dir m [1 / 10 ^ 6] = Ok [1] /\
    forall x, mat_n file dir m' x = Ok (map (fun _ => 1) x) /\ mat_k file dir m' x = Ok (map (fun _ => 0) x).
Proof.
  exists lib_db, lib_file, lib_dir, [("AlGaAs", "Al")]. do 3 (split; [reflexivity|]). do 2 eexists. do 2 (split; [reflexivity|]).
  destruct (C145_alloy lib_db lib_file lib_dir [("AlGaAs", "Al")] "AlGaAs" "Al" 0.3 ("ALGAAS30.MAT", row 3 1) _ [1 / 10 ^ 6]
              _ algaas eq_refl eq_refl eq_refl algaas_wf) as [E E']; [simpl; tauto|reflexivity| |].
  - cbn [fst]. destruct algaas_num as (_ & -> & _). rewrite INR_30. lra.
  - rewrite E, E'. cbn [map snd]. rewrite row_n, row_k. split; [reflexivity|]. split; [reflexivity|]. intros x. split; reflexivity.
Qed.

(** The entry of an alloy in compounds.txt and the name of its folder disagree (Poly and
    SIPOLY_X): asking for n ends the interpreter although the data are there. *)
Theorem C145_folder_refuted : forall x wl, exists m,
  sopra_mat lib_db lib_compounds "SiPOLY" [("Poly", x)] = Ok m /\ lib_dir "SIPOLY_X" <> None /\
  mat_n lib_file lib_dir m wl = Err SystemExit.
Proof. intros x wl. eexists. split; [reflexivity|]. split; [discriminate|]. reflexivity. Qed.

(** The files of one alloy carry tenths, not per cent: every fraction of at least one tenth
    gives the last file; the file of three tenths is not what the fraction 0.3 gives. *)
Lemma znsete_named : Forall2 (fun f v => named (list_ascii_of_string "ZNSETE") v (fst f)) (filter listed znsete) [0; 1; 3; 5; 7; 9; 10]%nat.
Proof.
  cbn [znsete filter listed fst String.index prefix].
  constructor; [cbn [fst]; name_it "0" ".MAT"|]. constructor; [cbn [fst]; name_it "1" ".MAT"|]. constructor; [cbn [fst]; name_it "3" ".MAT"|].
  constructor; [cbn [fst]; name_it "5" ".MAT"|]. constructor; [cbn [fst]; name_it "7" ".MAT"|]. constructor; [cbn [fst]; name_it "9" ".MAT"|].
  constructor; [cbn [fst]; name_it "10" ".MAT"|]. constructor.
Qed.
Lemma znsete_wf : wf (list_ascii_of_string "ZNSETE") znsete.
Proof. apply (wf_of _ _ _ znsete_named). repeat constructor; simpl; intuition discriminate. Qed.
Lemma nums_named p l vs : Forall2 (fun (f : string * dtable) v => named p v (fst f)) l vs -> map (fun f => num (fst f)) l = map INR vs.
Proof. intros F. induction F as [|g v l vs H F IH]; [reflexivity|]. cbn [map]. f_equal; [now apply (num_named p)|assumption]. Qed.
Lemma znsete_nums : map (fun f => num (fst f)) znsete = [0; 1; 3; 5; 7; 9; 10] /\ num "ZNSETE10.MAT" = 10.
Proof.
  pose proof (nums_named _ _ _ znsete_named) as N. change (filter listed znsete) with znsete in N.
  assert (E : map INR [0; 1; 3; 5; 7; 9; 10]%nat = [0; 1; 3; 5; 7; 9; 10]) by (cbn [map]; rewrite !INR_IZR_INZ; reflexivity).
  rewrite E in N. split; [exact N|]. change (num "ZNSETE10.MAT") with (last (map (fun f => num (fst f)) znsete) 0). now rewrite N.
Qed.
Theorem C145_tenths_refuted : forall x wl, 1 / 10 <= x -> exists m,
  sopra_mat lib_db lib_compounds "ZnSeTe" [("Te", x)] = Ok m /\ lib_dir "ZNSETE_TE" = Some znsete /\
  In ("ZNSETE3.MAT", row 3 2) znsete /\
  mat_n lib_file lib_dir m wl = Ok (map (fun _ => 7) wl) /\ map (n_at (row 3 2)) wl = map (fun _ => 3) wl.
Proof.
  intros x wl Hx. eexists. split; [reflexivity|]. split; [reflexivity|]. split; [simpl; tauto|]. split; [|apply map_ext; intros; apply row_n].
  unfold mat_n, interpolated. cbn [s_x s_file s_main snd]. unfold load_composition. cbn [rev app].
  change (lib_dir (upper "ZnSeTe" ++ "_" ++ upper "Te")) with (Some znsete). cbv iota.
  destruct znsete_nums as [Nu N10].
  rewrite (C144_outside _ znsete "ZNSETE10.MAT" (row 7 6) _ _ znsete_wf); [|simpl; tauto|reflexivity|].
  - cbn [bindR fst snd]. rewrite map_map. f_equal. apply map_ext. intros l. apply row_n.
  - right. rewrite N10. split; [|lra]. intros f I _. apply (in_map (fun f => num (fst f))) in I. rewrite Nu in I.
    simpl in I. lra.
Qed.

(** * Radiative recombination *)

(** C146, what is computed: the index of refraction is asked for at the energy in joules as
    if it were a wavelength in metres.  As long as the upper limit of the integral (as a
    number) is below the first tabulated wavelength, the answer is that of a material whose
    index is the first tabulated one at every energy; the rest of the table is without effect. *)
Theorem C146_first_row_partial : forall w0 n0 t k Eg T ni,
  increasing (map fst ((w0, n0) :: t)) -> 0 < Eg -> 0 < T -> Eg + 10 * kb * T <= w0 ->
  radiative (base_n (Some ((w0, n0) :: t))) k Eg T ni = radiative (fun _ => n0) k Eg T ni.
Proof.
  intros w0 n0 t k Eg T ni Hx PE PT Hu. unfold radiative. f_equal. apply RInt_ext. intros E [_ HE].
  pose proof kb_pos. rewrite Rmax_right in HE by nra. do 3 f_equal. unfold base_n, base_optic. f_equal.
  apply np_interp_low; [assumption|cbn [map length]; lia|cbn [map fst nth]; lra].
Qed.

(** The claim that the integrand has the index of refraction at the photon energy, that is
    at the wavelength hc/E, fails: here the value is a quarter of it. *)
Definition step_n : list (R * R) := [(1 / 10 ^ 7, 1); (2 / 10 ^ 7, 2)].
Definition flat_k : list (R * R) := [(1 / 10 ^ 7, 1)].
Definition witness_gap : R := h * c * (25 * 10 ^ 5).
Lemma step_inc : increasing (map fst step_n).
Proof.
  intros i j H. cbn [step_n map length fst] in *. assert (i = 0 /\ j = 1)%nat as [-> ->] by lia. cbn [nth]. lra.
Qed.
Lemma witness_upper : 0 < witness_gap /\ 0 < witness_gap + 10 * kb * 300 <= h * c * (5 * 10 ^ 6) /\ h * c * (5 * 10 ^ 6) < 1 / 10 ^ 7.
Proof.
  unfold witness_gap. pose proof h_pos. pose proof c_pos. pose proof kb_pos. assert (0 < h * c) by now apply Rmult_lt_0_compat.
  split; [|split; [split|]]; try nra; with_strategy transparent [h c kb] unfold h, c, kb; lra.
Qed.
Lemma flat_value x : base_k (Some flat_k) x = 1.
Proof. unfold base_k, base_optic, flat_k, np_interp. cbn [map fst snd count_le length]. destruct (Rle_dec _ _); reflexivity. Qed.
Theorem C146_radiative_refuted : exists tn tk Eg T,
  increasing (map fst tn) /\ 0 < Eg /\ T = 300 /\
  let n := base_n (Some tn) in let k := base_k (Some tk) in
  0 < radiative n k Eg T 1 /\ radiative (fun E => n (h * c / E)) k Eg T 1 = 4 * radiative n k Eg T 1.
Proof.
  exists step_n, flat_k, witness_gap, 300. split; [exact step_inc|]. destruct witness_upper as (PE & [PU HU] & HW).
  split; [assumption|]. split; [reflexivity|]. cbv zeta.
  set (u := witness_gap + 10 * kb * 300) in *. pose proof h_pos. pose proof c_pos. pose proof kb_pos. pose proof PI_RGT_0.
  set (F := fun E : R => 4 * PI / (h * c) * (E * (exp (- E / (kb * 300)) * E ^ 2))).
  assert (CF : forall E, continuous F E).
  { intros E. apply (ex_derive_continuous F). unfold F. auto_derive. repeat split; try nra. }
  assert (PF : 0 < RInt F 0 u).
  { apply RInt_gt_0; [assumption| |intros; apply CF]. intros E HE. unfold F. apply Rmult_lt_0_compat; [apply Rdiv_lt_0_compat; nra|].
    apply Rmult_lt_0_compat; [lra|]. apply Rmult_lt_0_compat; [apply exp_pos|]. nra. }
  assert (A : forall E, 0 < E -> base_alphaE (base_k (Some flat_k)) E = 4 * PI / (h * c) * E).
  { intros E HE. unfold base_alphaE, base_alpha. rewrite flat_value. field. repeat split; lra. }
  assert (R1 : RInt (fun E => base_n (Some step_n) E ^ 2 * base_alphaE (base_k (Some flat_k)) E * exp (- E / (kb * 300)) * E ^ 2) 0 u = RInt F 0 u).
  { apply RInt_ext. intros E HE. rewrite Rmin_left, Rmax_right in HE by lra. rewrite A by lra.
    unfold base_n, base_optic. rewrite np_interp_low; [|exact step_inc|cbn; lia|cbn [step_n map fst nth]; lra].
    cbn [step_n map snd nth]. unfold F. match goal with |- ?a = ?b => change (@eq R a b) end. ring. }
  assert (R2 : RInt (fun E => base_n (Some step_n) (h * c / E) ^ 2 * base_alphaE (base_k (Some flat_k)) E * exp (- E / (kb * 300)) * E ^ 2) 0 u = 4 * RInt F 0 u).
  { transitivity (RInt (fun E => scal 4 (F E)) 0 u).
    - apply RInt_ext. intros E HE. rewrite Rmin_left, Rmax_right in HE by lra. rewrite A by lra.
      unfold base_n, base_optic. rewrite np_interp_high; [|exact step_inc|cbn; lia|].
      + cbn [step_n map snd nth length Nat.sub]. unfold F, scal. simpl. unfold mult. simpl. match goal with |- ?a = ?b => change (@eq R a b) end. ring.
      + cbn [step_n map fst nth length Nat.sub]. apply Rmult_le_reg_r with E; [lra|]. unfold Rdiv at 2. rewrite Rmult_assoc, Rinv_l by lra. lra.
    - apply (@RInt_scal R_CompleteNormedModule F 0 u 4). apply (ex_RInt_continuous F). intros; apply CF. }
  unfold radiative. fold u. rewrite R1, R2. split; [|ring]. apply Rmult_lt_0_compat; [|assumption].
  apply Rdiv_lt_0_compat; [lra|]. apply Rmult_lt_0_compat; apply pow_lt; assumption.
Qed.
Example C146_first_row_example : increasing (map fst step_n) /\ 0 < witness_gap /\ witness_gap + 10 * kb * 300 <= 1 / 10 ^ 7.
Proof. split; [exact step_inc|]. destruct witness_upper as (A & B & D). split; lra. Qed.
