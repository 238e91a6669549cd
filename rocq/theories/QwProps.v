(** Properties C55 (hole masses), C57 (assembly of wells), C93 (discretised band
    profile), C97 (blurring) and C98 (varied wells). *)
From Coq Require Import Reals String List Bool ZArith Lra Lia.
From Verif Require Import Common PhysConst InterpModel NpModel StructModel StructProps StrainModel StrainProps
  DetBalModel DetBalProps SmoothModel SmoothProps QwModel.
From Coq Require Import List.
Import ListNotations.
Open Scope string_scope.
Open Scope R_scope.
Open Scope list_scope.

(** * C57 *)

(** How often a label occurs, and the widths under a label. *)
Definition labelled (k : string) (s : structure nat) : list nat :=
  map fst (filter (fun p => label_eqb (snd p) (Some k)) (combine (layers s) (labels s))).
Definition sum_widths (h : nat -> qlayer) (l : list nat) : R := fold_right (fun r a => q_width (h r) + a) 0 l.

Lemma combine_app {A B} (l1 l2 : list A) (m1 m2 : list B) : length l1 = length m1 ->
  combine (l1 ++ l2) (m1 ++ m2) = combine l1 m1 ++ combine l2 m2.
Proof. revert m1. induction l1 as [|a l1 IH]; intros [|b m1] H; simpl in *; try lia; [reflexivity|]. f_equal. apply IH. lia. Qed.

Definition pairs_of (s : structure nat) : list (nat * label) := combine (layers s) (labels s).
Lemma add_layers_pairs s ls lbs n : length (layers s) = length (labels s) -> length ls = length lbs ->
  pairs_of (add_layers s ls lbs n) = pairs_of s ++ concat (repeat (combine ls (map Some lbs)) (Z.to_nat n)) /\
  length (layers (add_layers s ls lbs n)) = length (labels (add_layers s ls lbs n)) /\
  layers (add_layers s ls lbs n) = layers s ++ concat (repeat ls (Z.to_nat n)).
Proof.
  intros Hs Hl. unfold add_layers, append_multiple. simpl negb. cbv iota. rewrite map_length, Hl, Nat.eqb_refl. simpl fst.
  destruct (extend_loop_spec (Z.to_nat n) s ls (map Some lbs)) as [E1 E2]; [now rewrite map_length|].
  unfold pairs_of. rewrite E1, E2.
  assert (L : forall (z : list (nat * label)), combine (map fst z) (map snd z) = z).
  { induction z as [|[a b] z IH]; simpl; [reflexivity|]. now rewrite IH. }
  split; [|split].
  - rewrite combine_app by assumption. now rewrite L.
  - rewrite !app_length, !map_length. lia.
  - f_equal. clear E1 E2. induction (Z.to_nat n) as [|k IH]; simpl; [reflexivity|]. rewrite map_app, IH. f_equal.
    apply map_fst_combine. now rewrite map_length.
Qed.

Lemma filter_concat_repeat {A} (p : A -> bool) l n : filter p (concat (repeat l n)) = concat (repeat (filter p l) n).
Proof. induction n as [|n IH]; simpl; [reflexivity|]. now rewrite filter_app, IH. Qed.
Lemma map_concat_repeat {A B} (f : A -> B) l n : map f (concat (repeat l n)) = concat (repeat (map f l) n).
Proof. induction n as [|n IH]; simpl; [reflexivity|]. now rewrite map_app, IH. Qed.
Lemma sum_widths_app h l l' : sum_widths h (l ++ l') = sum_widths h l + sum_widths h l'.
Proof. unfold sum_widths. induction l as [|a l IH]; simpl; [lra|]. rewrite IH. lra. Qed.
Lemma sum_widths_rep h l n : sum_widths h (concat (repeat l n)) = INR n * sum_widths h l.
Proof. induction n as [|n IH]; [simpl; unfold sum_widths; simpl; lra|]. rewrite S_INR. simpl. rewrite sum_widths_app, IH. lra. Qed.

(** The pairs (layer, label) of the assembled structure. *)
Lemma assemble_pairs h fresh n well top bottom barrier inter :
  let s := snd (assemble_qw_structure h fresh n well top bottom barrier inter) in
  pairs_of s = [(top, Some "bulk"); (fresh, Some "half barrier")] ++
    match inter with
    | Some i =>
        concat (repeat [(i, Some "interlayer"); (well, Some "well"); (i, Some "interlayer"); (barrier, Some "barrier")] (Z.to_nat (n - 1)))
        ++ [(i, Some "interlayer"); (well, Some "well"); (i, Some "interlayer"); (fresh, Some "half barrier"); (bottom, Some "bulk")]
    | None =>
        concat (repeat [(well, Some "well"); (barrier, Some "barrier")] (Z.to_nat (n - 1)))
        ++ [(well, Some "well"); (fresh, Some "half barrier"); (bottom, Some "bulk")]
    end /\ length (layers s) = length (labels s) /\ map fst (pairs_of s) = layers s.
Proof.
  simpl. assert (F : forall s, length (layers s) = length (labels s) -> map fst (pairs_of s) = layers s).
  { intros s Hs. unfold pairs_of. now apply map_fst_combine. }
  destruct inter as [i|].
  - set (s0 := structure_init ([] : list nat)).
    destruct (add_layers_pairs s0 [top] ["bulk"] 1) as (P1 & L1 & _); [reflexivity..|]. set (s1 := add_layers s0 _ _ _) in *.
    destruct (add_layers_pairs s1 [fresh] ["half barrier"] 1) as (P2 & L2 & _); [assumption|reflexivity|]. set (s2 := add_layers s1 _ _ _) in *.
    destruct (add_layers_pairs s2 [i; well; i; barrier] ["interlayer"; "well"; "interlayer"; "barrier"] (n - 1)) as (P3 & L3 & _);
      [assumption|reflexivity|]. set (s3 := add_layers s2 _ _ _) in *.
    destruct (add_layers_pairs s3 [i; well; i; fresh; bottom] ["interlayer"; "well"; "interlayer"; "half barrier"; "bulk"] 1) as (P4 & L4 & _);
      [assumption|reflexivity|].
    split; [|split; [assumption|now apply F]]. rewrite P4, P3, P2, P1. simpl. rewrite <- ?app_assoc. reflexivity.
  - set (s0 := structure_init ([] : list nat)).
    destruct (add_layers_pairs s0 [top] ["bulk"] 1) as (P1 & L1 & _); [reflexivity..|]. set (s1 := add_layers s0 _ _ _) in *.
    destruct (add_layers_pairs s1 [fresh] ["half barrier"] 1) as (P2 & L2 & _); [assumption|reflexivity|]. set (s2 := add_layers s1 _ _ _) in *.
    destruct (add_layers_pairs s2 [well; barrier] ["well"; "barrier"] (n - 1)) as (P3 & L3 & _);
      [assumption|reflexivity|]. set (s3 := add_layers s2 _ _ _) in *.
    destruct (add_layers_pairs s3 [well; fresh; bottom] ["well"; "half barrier"; "bulk"] 1) as (P4 & L4 & _);
      [assumption|reflexivity|].
    split; [|split; [assumption|now apply F]]. rewrite P4, P3, P2, P1. simpl. rewrite <- ?app_assoc. reflexivity.
Qed.

(** C57, as stated: n repeats give n wells, n barriers in total width and bulk on both
    ends.  Missing: n < 1, where one well is built all the same (see below). *)
Theorem C57_assembly_partial :
  forall h fresh n well top bottom barrier inter,
    (1 <= n)%Z -> ~ In fresh (well :: top :: bottom :: barrier :: match inter with Some i => [i] | None => [] end) ->
    let h' := fst (assemble_qw_structure h fresh n well top bottom barrier inter) in
    let s := snd (assemble_qw_structure h fresh n well top bottom barrier inter) in
    let wi := match inter with Some i => 2 * q_width (h i) | None => 0 end in
    labelled "well" s = repeat well (Z.to_nat n) /\
    sum_widths h' (labelled "barrier" s) + sum_widths h' (labelled "half barrier" s) = IZR n * q_width (h barrier) /\
    sum_widths h' (layers s) = q_width (h top) + q_width (h bottom) + IZR n * (q_width (h well) + q_width (h barrier) + wi) /\
    labelled "bulk" s = [top; bottom] /\ hd 0%nat (layers s) = top /\ last (layers s) 0%nat = bottom /\
    length (labels s) = length (layers s) /\
    (forall r, In r (well :: top :: bottom :: barrier :: match inter with Some i => [i] | None => [] end) -> h' r = h r).
Proof.
  intros h fresh n well top bottom barrier inter Hn Hf h' s wi.
  destruct (assemble_pairs h fresh n well top bottom barrier inter) as (P & L & F). fold s in P, L, F.
  assert (Hw : forall r, r <> fresh -> h' r = h r).
  { intros r Hr. unfold h', assemble_qw_structure, hset. simpl. now rewrite (proj2 (Nat.eqb_neq r fresh) Hr). }
  assert (Hfr : q_width (h' fresh) = q_width (h barrier) / 2).
  { unfold h', assemble_qw_structure, hset. simpl. now rewrite Nat.eqb_refl. }
  assert (Hin : forall r, In r (well :: top :: bottom :: barrier :: match inter with Some i => [i] | None => [] end) -> h' r = h r).
  { intros r Hr. apply Hw. intros ->. contradiction. }
  assert (W1 : h' well = h well) by (apply Hin; simpl; tauto).
  assert (W2 : h' top = h top) by (apply Hin; simpl; tauto).
  assert (W3 : h' bottom = h bottom) by (apply Hin; simpl; tauto).
  assert (W4 : h' barrier = h barrier) by (apply Hin; simpl; tauto).
  assert (N : IZR n = INR (Z.to_nat (n - 1)) + 1).
  { rewrite INR_IZR_INZ, Z2Nat.id by lia. rewrite minus_IZR. lra. }
  assert (NN : Z.to_nat n = S (Z.to_nat (n - 1))) by lia.
  unfold labelled. fold (pairs_of s). rewrite P. rewrite <- F, P.
  clear P L F. set (k := Z.to_nat (n - 1)) in *. unfold wi.
  destruct inter as [i|].
  - assert (W5 : h' i = h i) by (apply Hin; simpl; tauto).
    rewrite !filter_app, !filter_concat_repeat. cbn [filter label_eqb snd String.eqb Ascii.eqb Bool.eqb].
    rewrite !map_app, !map_concat_repeat. cbn [map fst].
    rewrite !sum_widths_app, !sum_widths_rep. unfold sum_widths at 1 2 3 4 5 6 7 8 9. cbn [fold_right].
    rewrite ?W1, ?W2, ?W3, ?W4, ?W5, ?Hfr.
    split; [|split; [|split; [|split; [|split; [|split; [|split]]]]]].
    + rewrite NN. clear. induction k as [|k IH]; simpl in *; [reflexivity|]. now rewrite IH.
    + rewrite N. lra.
    + rewrite N. lra.
    + clear. induction k; simpl in *; assumption || reflexivity.
    + reflexivity.
    + rewrite app_assoc. change [i; well; i; fresh; bottom] with ([i; well; i; fresh] ++ [bottom]). rewrite app_assoc. apply last_last.
    + unfold s. rewrite <- (proj1 (proj2 (assemble_pairs h fresh n well top bottom barrier (Some i)))).
      pose proof (assemble_pairs h fresh n well top bottom barrier (Some i)) as (P & L & F). cbv zeta in P, L, F.
      rewrite <- F at 1. rewrite P. rewrite !map_app, !map_concat_repeat. reflexivity.
    + exact Hin.
  - rewrite !filter_app, !filter_concat_repeat. cbn [filter label_eqb snd String.eqb Ascii.eqb Bool.eqb].
    rewrite !map_app, !map_concat_repeat. cbn [map fst].
    rewrite !sum_widths_app, !sum_widths_rep. unfold sum_widths at 1 2 3 4 5 6 7 8 9. cbn [fold_right].
    rewrite ?W1, ?W2, ?W3, ?W4, ?Hfr.
    split; [|split; [|split; [|split; [|split; [|split; [|split]]]]]].
    + rewrite NN. clear. induction k as [|k IH]; simpl in *; [reflexivity|]. now rewrite IH.
    + rewrite N. lra.
    + rewrite N. lra.
    + clear. induction k; simpl in *; assumption || reflexivity.
    + reflexivity.
    + rewrite app_assoc. change [well; fresh; bottom] with ([well; fresh] ++ [bottom]). rewrite app_assoc. apply last_last.
    + unfold s. rewrite <- (proj1 (proj2 (assemble_pairs h fresh n well top bottom barrier None))).
      pose proof (assemble_pairs h fresh n well top bottom barrier None) as (P & L & F). cbv zeta in P, L, F.
      rewrite <- F at 1. rewrite P. rewrite !map_app, !map_concat_repeat. reflexivity.
    + exact Hin.
Qed.
Print Assumptions C57_assembly_partial.
Example C57_case :
  exists h : nat -> qlayer, ~ In 9%nat [1; 0; 3; 2]%nat /\ q_width (h 1%nat) = 7 /\ q_width (h 2%nat) = 10 /\
    labelled "well" (snd (assemble_qw_structure h 9 3 1 0 3 2 None)) = [1; 1; 1]%nat.
Proof.
  exists (fun r => {| q_width := match r with 1%nat => 7 | _ => 10 end; q_mat := ex_mat; q_Ec := None; q_Ev := None |}).
  split; [simpl; intuition discriminate|]. split; [reflexivity|]. split; reflexivity.
Qed.

(** Asking for no well, or for a negative number, gives one. *)
Theorem C57_no_repeats_refuted :
  forall h fresh n well top bottom barrier inter, (n <= 0)%Z ->
    labelled "well" (snd (assemble_qw_structure h fresh n well top bottom barrier inter)) = [well].
Proof.
  intros h fresh n well top bottom barrier inter Hn. unfold labelled.
  fold (pairs_of (snd (assemble_qw_structure h fresh n well top bottom barrier inter))).
  rewrite (proj1 (assemble_pairs h fresh n well top bottom barrier inter)).
  replace (Z.to_nat (n - 1)) with 0%nat by lia. now destruct inter.
Qed.
Print Assumptions C57_no_repeats_refuted.
Example C57_no_repeats_case :
  labelled "well" (snd (assemble_qw_structure (fun _ => {| q_width := 1; q_mat := ex_mat; q_Ec := None; q_Ev := None |}) 9 0 1 0 3 2 None)) = [1]%nat.
Proof. reflexivity. Qed.

(** * C93 *)

(** Depth at which layer [j] starts. *)
Definition start (w : nat -> R) (ls : list nat) (j : nat) : R := fold_right (fun r a => w r + a) 0 (firstn j ls).
(** Layer [j] contains depth [z] (closed interval). *)
Definition contains (w : nat -> R) (ls : list nat) (j : nat) (z : R) : Prop :=
  (j < length ls)%nat /\ start w ls j <= z <= start w ls j + w (nth j ls 0%nat).
(** Layer [j] is the deepest layer containing [z]. *)
Definition owner (w : nat -> R) (ls : list nat) (j : nat) (z : R) : Prop :=
  contains w ls j z /\ forall j', (j < j')%nat -> ~ contains w ls j' z.

Lemma inside_iff d w z : inside d w z = true <-> d <= z <= d + w.
Proof. unfold inside. destruct (Rle_dec d z), (Rle_dec z (d + w)); split; intros; try discriminate; try reflexivity; lra. Qed.

Lemma fill_length f w x : forall ls depth acc ps, length acc = length x -> fill f w x ls depth acc = Ok ps -> length ps = length x.
Proof.
  induction ls as [|r ls IH]; intros depth acc ps Hl H; simpl in H; [injection H as <-; assumption|].
  destruct (f r) as [p|e]; [|discriminate]. simpl in H. apply IH in H; [assumption|].
  rewrite map_length, combine_length. lia.
Qed.
Lemma fill_keep f w x : forall ls depth acc ps i, length acc = length x -> (i < length x)%nat ->
  fill f w x ls depth acc = Ok ps ->
  (forall j, (j < length ls)%nat -> ~ (depth + start w ls j <= nth i x 0 <= depth + start w ls j + w (nth j ls 0%nat))) ->
  nth i ps point0 = nth i acc point0.
Proof.
  induction ls as [|r ls IH]; intros depth acc ps i Hl Hi H Hn; simpl in H; [injection H as <-; reflexivity|].
  destruct (f r) as [p|e]; [|discriminate]. simpl in H. apply IH with (i := i) in H.
  - rewrite H. pose proof (Hn 0%nat ltac:(simpl; lia)) as N0. unfold start in N0. simpl in N0.
    set (g := fun xp : R * point => if inside depth (w r) (fst xp) then p else snd xp).
    rewrite (nth_indep _ _ (g (0, point0))) by (rewrite map_length, combine_length; lia).
    rewrite map_nth, combine_nth by lia. unfold g. simpl.
    destruct (inside depth (w r) (nth i x 0)) eqn:E; [apply inside_iff in E; exfalso; apply N0; lra|reflexivity].
  - rewrite map_length, combine_length. lia.
  - assumption.
  - intros j Hj. specialize (Hn (S j) ltac:(simpl; lia)). unfold start in *. simpl in Hn. intros C. apply Hn. lra.
Qed.
Lemma fill_owner f w x : forall ls depth acc ps i j, length acc = length x -> (i < length x)%nat ->
  fill f w x ls depth acc = Ok ps -> (j < length ls)%nat ->
  depth + start w ls j <= nth i x 0 <= depth + start w ls j + w (nth j ls 0%nat) ->
  (forall j', (j < j' < length ls)%nat -> ~ (depth + start w ls j' <= nth i x 0 <= depth + start w ls j' + w (nth j' ls 0%nat))) ->
  f (nth j ls 0%nat) = Ok (nth i ps point0).
Proof.
  induction ls as [|r ls IH]; intros depth acc ps i j Hl Hi H Hj Hc Hn; simpl in H, Hj; [lia|].
  destruct (f r) as [p|e] eqn:Ef; [|discriminate]. simpl in H.
  assert (Hl' : length (map (fun xp => if inside depth (w r) (fst xp) then p else snd xp) (combine x acc)) = length x)
    by (rewrite map_length, combine_length; lia).
  destruct j as [|j].
  - apply fill_keep with (i := i) in H; [|assumption|assumption|].
    + rewrite H. simpl. rewrite Ef. f_equal.
      set (g := fun xp : R * point => if inside depth (w r) (fst xp) then p else snd xp).
      rewrite (nth_indep _ _ (g (0, point0))) by (rewrite map_length, combine_length; lia).
      rewrite map_nth, combine_nth by lia. unfold g. simpl. unfold start in Hc. simpl in Hc.
      destruct (inside depth (w r) (nth i x 0)) eqn:E; [reflexivity|]. exfalso. assert (inside depth (w r) (nth i x 0) = true) by (apply inside_iff; lra). congruence.
    + intros j Hj'. specialize (Hn (S j) ltac:(simpl; lia)). unfold start in *. simpl in Hn. intros C. apply Hn. lra.
  - simpl. apply IH with (i := i) (j := j) in H; try assumption; try lia.
    + unfold start in *. simpl in Hc. lra.
    + intros j' Hj'. specialize (Hn (S j') ltac:(simpl; lia)). unfold start in *. simpl in Hn. intros C. apply Hn. lra.
Qed.

Lemma sumR_fold l : sumR l = fold_right Rplus 0 l.
Proof. induction l as [|a l IH]; [reflexivity|]. now rewrite sumR_cons, IH. Qed.
Lemma start_all w ls : start w ls (length ls) = sumR (map w ls).
Proof. unfold start. rewrite firstn_all, sumR_fold. induction ls as [|r ls IH]; simpl; [reflexivity|]. now rewrite IH. Qed.
Lemma start_S w ls j : (j < length ls)%nat -> start w ls (S j) = start w ls j + w (nth j ls 0%nat).
Proof.
  unfold start. revert j. induction ls as [|r ls IH]; intros [|j] H; simpl in *; try lia; [lra|].
  specialize (IH j ltac:(lia)). simpl in IH. rewrite IH. lra.
Qed.
Lemma owner_exists w ls z : (forall r, In r ls -> 0 <= w r) -> ls <> [] -> 0 <= z <= sumR (map w ls) -> exists j, owner w ls j z.
Proof.
  intros Hw Hne Hz. rewrite <- start_all in Hz.
  assert (G : forall k, (k <= length ls)%nat -> (0 < k)%nat -> z <= start w ls k -> 0 <= z ->
    exists j, (j < k)%nat /\ contains w ls j z /\ forall j', (j < j' < k)%nat -> ~ contains w ls j' z).
  { induction k as [|k IH]; intros Hk Hk0 H1 H0; [lia|].
    rewrite start_S in H1 by lia.
    destruct (Rle_dec (start w ls k) z) as [Hs|Hs].
    - exists k. split; [lia|]. split; [split; [lia|lra]|]. intros; lia.
    - destruct k as [|k]; [unfold start in Hs; simpl in Hs; lra|].
      destruct IH as (j & J1 & J2 & J3); [lia|lia|lra|lra|]. exists j. split; [lia|]. split; [assumption|].
      intros j' Hj' C. destruct (Nat.eq_dec j' (S k)) as [->|]; [destruct C as [_ C]; lra|]. apply (J3 j'); [lia|assumption]. }
  destruct (G (length ls)) as (j & J1 & J2 & J3); [lia|destruct ls; simpl; [contradiction|lia]|lra|lra|].
  exists j. split; [assumption|]. intros j' Hj' C. apply (J3 j'); [split; [lia|apply C]|assumption].
Qed.
Lemma start_le w ls : (forall r, In r ls -> 0 <= w r) -> forall j k, (j <= k <= length ls)%nat -> start w ls j <= start w ls k.
Proof.
  intros Hw j k [Hjk Hk]. revert Hk. induction Hjk as [|k Hjk IH]; intros Hk; [lra|].
  rewrite start_S by lia. assert (0 <= w (nth k ls 0%nat)) by (apply Hw, nth_In; lia). specialize (IH ltac:(lia)). lra.
Qed.
(** A point strictly inside a layer belongs to it; a point on the interface of two
    layers of positive width belongs to the deeper one. *)
Lemma owner_inside w ls j z : (forall r, In r ls -> 0 <= w r) -> (j < length ls)%nat ->
  start w ls j <= z < start w ls j + w (nth j ls 0%nat) -> owner w ls j z.
Proof.
  intros Hw Hj Hz. split; [split; [assumption|lra]|]. intros j' Hj' [C1 C2].
  assert (start w ls (S j) <= start w ls j') by (apply start_le; [assumption|lia]). rewrite start_S in H by assumption. lra.
Qed.

(** The band edges and masses expected in a layer, written with the material
    parameters and the published models. *)
Definition expected (kp8 : mat -> mat -> bands8) (mode : string) (l : qlayer) (sb : mat) (d : R) (p : point) : Prop :=
  let m := q_mat l in
  p_g1 p = m_g1 m /\ p_g2 p = m_g2 m /\ p_g3 p = m_g3 m /\
  (mode = "kp8x8_bulk" \/ p_me p = m_me m * electron_mass) /\
  ((mode = "relaxed" /\ q_Ec l = Some (p_Ve p - d) /\ q_Ev l = Some (p_Vhh p - d) /\ q_Ev l = Some (p_Vlh p - d) /\ p_Vso p = 0) \/
   (mode = "strain" /\ p_Vso p = 0 /\ exists Ec Ev k, q_Ec l = Some Ec /\ q_Ev l = Some Ev /\
      strain_calculation_parameters sb m true = Ok k /\
      p_Ve p = Ec + k_dEc k + d /\ p_Vhh p = Ev + k_dEhh k + d /\ p_Vlh p = Ev + k_dElh k + d) \/
   (mode = "kp4x4" /\ p_Ve p = b4_c (kp4x4 m sb) + d /\ p_Vhh p = b4_hh (kp4x4 m sb) + d /\ p_Vlh p = b4_lh (kp4x4 m sb) + d /\ p_Vso p = 0) \/
   (mode = "kp6x6" /\ p_Ve p = b6_c (kp6x6 m sb) + d /\ p_Vhh p = b6_hh (kp6x6 m sb) + d /\ p_Vlh p = b6_lh (kp6x6 m sb) + d /\
      p_Vso p = b6_so (kp6x6 m sb) + d) \/
   (mode = "kp8x8_bulk" /\ p_Ve p = b8_c (kp8 m sb) + d /\ p_Vhh p = b8_hh (kp8 m sb) + d /\ p_Vlh p = b8_lh (kp8 m sb) + d /\
      p_Vso p = b8_so (kp8 m sb) + d /\ p_me p = b8_mc (kp8 m sb) /\ p_mhh_p p = b8_mhh (kp8 m sb) /\ p_mlh_p p = b8_mlh (kp8 m sb))).

Lemma mode_of_name m s : mode_of s = Some m ->
  s = match m with Kp6 => "kp6x6" | Kp4 => "kp4x4" | Kp8 => "kp8x8_bulk" | Strain => "strain" | Relaxed => "relaxed" end.
Proof.
  unfold mode_of. destruct (String.eqb_spec s "kp6x6"); [intros H; injection H as <-; assumption|].
  destruct (String.eqb_spec s "kp4x4"); [intros H; injection H as <-; assumption|].
  destruct (String.eqb_spec s "kp8x8_bulk"); [intros H; injection H as <-; assumption|].
  destruct (String.eqb_spec s "strain"); [intros H; injection H as <-; assumption|].
  destruct (String.eqb_spec s "relaxed"); [intros H; injection H as <-; assumption|]. discriminate.
Qed.

(** Unfolding of a successful call. *)
Lemma potentials_ok kp8 h s sub a x ps :
  structure_to_potentials kp8 h s sub a = Ok (x, ps) ->
  exists m n fs, mode_of (a_mode a) = Some m /\ (0 <= n)%Z /\
    mesh_size (map (fun r => q_width (h r)) (layers s)) (a_step a) (a_min_step a) (a_feature_steps a) = Ok n /\
    x = linspace 0 (sumR (map (fun r => q_width (h r)) (layers s))) (Z.to_nat n) /\
    fill (fun r => layer_point kp8 (h r) sub m (match a_qw a with Some r' => Nat.eqb r r' | None => false end))
      (fun r => q_width (h r)) x (layers s) 0 (repeat point0 (length x)) = Ok fs /\
    blurred (length x) (a_blur a) (sumR (map (fun r => q_width (h r)) (layers s))) n (a_blurmode a) = Ok tt /\
    ps = map (fun xp => drop_so m (tilt (a_Efield a) xp)) (combine x fs).
Proof.
  unfold structure_to_potentials. destruct (mode_of (a_mode a)) as [m|] eqn:Em; [|discriminate].
  destruct (mesh_size _ _ _ _) as [n|e] eqn:En; [|discriminate]. simpl.
  destruct (Z.ltb_spec n 0); [discriminate|].
  destruct (fill _ _ _ _ _ _) as [fs|e] eqn:Ef; [|discriminate]. simpl.
  destruct (blurred _ _ _ _ _) as [[]|e] eqn:Eb; [|discriminate]. simpl. intros E. injection E as <- <-.
  exists m, n, fs. split; [reflexivity|]. split; [lia|]. split; [reflexivity|]. split; [reflexivity|].
  split; [assumption|]. split; [assumption|reflexivity].
Qed.
Lemma fill_length_pot kp8 h s sub a x ps : structure_to_potentials kp8 h s sub a = Ok (x, ps) -> length ps = length x.
Proof.
  intros H. apply potentials_ok in H as (m & n & fs & _ & _ & _ & _ & Hf & _ & ->).
  apply fill_length in Hf; [|now rewrite repeat_length]. rewrite map_length, combine_length. lia.
Qed.

(** C93: every mesh point carries the edges and masses of the deepest layer that
    contains it, in every mode, tilted by the electric field; with non-negative widths
    every mesh point has such a layer, which is the layer it lies in, and the deeper of
    the two on an interface. *)
Theorem C93_band_profile :
  forall kp8 h s sub a x ps,
    structure_to_potentials kp8 h s sub a = Ok (x, ps) ->
    length ps = length x /\
    (forall i j, (i < length x)%nat -> owner (fun r => q_width (h r)) (layers s) j (nth i x 0) ->
       exists sb, sub = Some sb /\
       expected kp8 (a_mode a) (h (nth j (layers s) 0%nat)) sb (q * nth i x 0 * a_Efield a) (nth i ps point0) /\
       (p_well (nth i ps point0) = true <-> a_qw a = Some (nth j (layers s) 0%nat))) /\
    ((forall r, In r (layers s) -> 0 <= q_width (h r)) -> layers s <> [] ->
     forall i, (i < length x)%nat ->
       (exists j, owner (fun r => q_width (h r)) (layers s) j (nth i x 0)) /\
       (forall j, (j < length (layers s))%nat ->
          start (fun r => q_width (h r)) (layers s) j <= nth i x 0 < start (fun r => q_width (h r)) (layers s) j + q_width (h (nth j (layers s) 0%nat)) ->
          owner (fun r => q_width (h r)) (layers s) j (nth i x 0))).
Proof.
  intros kp8 h s sub a x ps H. pose proof (fill_length_pot _ _ _ _ _ _ _ H) as HL. split; [assumption|].
  apply potentials_ok in H as (m & n & fs & Hm & Hn & Hs & Hx & Hf & Hb & Hps). split.
  - intros i j Hi [[Hj Hc] Ho].
    assert (Hfl : length fs = length x) by (apply fill_length in Hf; [assumption|now rewrite repeat_length]).
    pose proof (fill_owner _ _ _ _ _ _ _ i j ltac:(now rewrite repeat_length) Hi Hf Hj) as G.
    specialize (G ltac:(lra)). assert (G' : _) by (apply G; intros j' Hj' C; apply (Ho j'); [lia|split; [lia|lra]]). clear G.
    assert (E : nth i ps point0 = drop_so m (tilt (a_Efield a) (nth i x 0, nth i fs point0))).
    { rewrite Hps. set (g := fun xp => drop_so m (tilt (a_Efield a) xp)).
      rewrite (nth_indep _ _ (g (0, point0))) by (rewrite map_length, combine_length; lia).
      rewrite map_nth, combine_nth by lia. reflexivity. }
    rewrite E. clear E. set (p := nth i fs point0) in *. set (l := h (nth j (layers s) 0%nat)) in *.
    assert (Wl : p_well p = match a_qw a with Some r' => Nat.eqb (nth j (layers s) 0%nat) r' | None => false end).
    { unfold layer_point in G'. destruct (q_Ec l), (q_Ev l), sub; try discriminate.
      destruct m; try (injection G' as <-; reflexivity).
      destruct (strain_calculation_parameters _ _ _); [|discriminate]. injection G' as <-. reflexivity. }
    assert (Wl2 : p_well (drop_so m (tilt (a_Efield a) (nth i x 0, p))) = p_well p) by (destruct m; reflexivity).
    assert (D : (if Req_EM_T (a_Efield a) 0 then 0 else q * nth i x 0 * a_Efield a) = q * nth i x 0 * a_Efield a)
      by (destruct (Req_EM_T (a_Efield a) 0) as [->|]; lra).
    destruct sub as [sb|]; [|unfold layer_point in G'; destruct (q_Ec l), (q_Ev l); discriminate].
    exists sb. split; [reflexivity|]. split.
    + apply mode_of_name in Hm. unfold layer_point in G'. destruct (q_Ec l) as [Ec|] eqn:EEc; [|discriminate].
      destruct (q_Ev l) as [Ev|] eqn:EEv; [|discriminate]. unfold expected, tilt. rewrite D. rewrite Hm, EEc, EEv.
      destruct m; cbn [drop_so p_Ve p_Vhh p_Vlh p_Vso p_me p_mhh_p p_mhh_t p_mlh_p p_mlh_t p_g1 p_g2 p_g3].
      * injection G' as <-. cbn. repeat (split; [now (left + idtac)|]); repeat split; try reflexivity; try (right; reflexivity).
        do 3 right. left. repeat split; reflexivity.
      * injection G' as <-. cbn. repeat split; try reflexivity; try (right; reflexivity).
        do 2 right. left. repeat split; try reflexivity. lra.
      * injection G' as <-. cbn. repeat split; try reflexivity; try (left; reflexivity).
        do 4 right. repeat split; reflexivity.
      * destruct (strain_calculation_parameters sb (q_mat l) true) as [k|] eqn:Ek; [|discriminate].
        injection G' as <-. cbn. repeat split; try reflexivity; try (right; reflexivity).
        right. left. split; [reflexivity|]. split; [lra|]. exists Ec, Ev, k. repeat split; reflexivity.
      * injection G' as <-. cbn. repeat split; try reflexivity; try (right; reflexivity).
        left. repeat split; try (f_equal; lra).
    + rewrite Wl2, Wl. destruct (a_qw a) as [r'|]; [|split; discriminate]. rewrite Nat.eqb_eq. split; congruence.
  - intros Hw Hne i Hi. split.
    + apply owner_exists; [assumption|assumption|].
      assert (T : 0 <= sumR (map (fun r => q_width (h r)) (layers s))).
      { rewrite sumR_fold. clear -Hw. induction (layers s) as [|r l IH]; simpl; [lra|].
        assert (0 <= q_width (h r)) by (apply Hw; now left). assert (0 <= fold_right Rplus 0 (map (fun r => q_width (h r)) l)) by (apply IH; intros; apply Hw; now right). lra. }
      rewrite Hx in *. rewrite linspace_length in Hi. rewrite linspace_nth by assumption.
      destruct (Nat.eq_dec (Z.to_nat n) 1) as [E1|E1].
      * rewrite E1 in *. replace i with 0%nat by lia. simpl. unfold Rdiv. rewrite Rmult_0_r, Rmult_0_l. lra.
      * assert (0 < INR (Z.to_nat n - 1)) by (apply lt_0_INR; lia).
        assert (0 <= INR i / INR (Z.to_nat n - 1) <= 1).
        { split; [apply Rmult_le_pos; [apply pos_INR|left; now apply Rinv_0_lt_compat]|].
          apply Rmult_le_reg_r with (INR (Z.to_nat n - 1)); [assumption|]. unfold Rdiv. rewrite Rmult_assoc, Rinv_l by lra.
          rewrite Rmult_1_r, Rmult_1_l. apply le_INR. lia. }
        unfold Rdiv in *. rewrite Rmult_assoc. nra.
    + intros j Hj Hz. apply owner_inside; assumption.
Qed.
Print Assumptions C93_band_profile.

(** The point written by its layer. *)
Lemma owner_point kp8 h s sub a x ps i j :
  structure_to_potentials kp8 h s sub a = Ok (x, ps) -> (i < length x)%nat ->
  owner (fun r => q_width (h r)) (layers s) j (nth i x 0) ->
  exists m p, mode_of (a_mode a) = Some m /\
    layer_point kp8 (h (nth j (layers s) 0%nat)) sub m
      (match a_qw a with Some r' => Nat.eqb (nth j (layers s) 0%nat) r' | None => false end) = Ok p /\
    nth i ps point0 = drop_so m (tilt (a_Efield a) (nth i x 0, p)).
Proof.
  intros H Hi [[Hj Hc] Ho]. apply potentials_ok in H as (m & n & fs & Hm & Hn & Hs & Hx & Hf & Hb & Hps).
  assert (Hfl : length fs = length x) by (apply fill_length in Hf; [assumption|now rewrite repeat_length]).
  exists m, (nth i fs point0). split; [assumption|]. split.
  - apply (fill_owner _ _ _ _ _ _ _ i j ltac:(now rewrite repeat_length) Hi Hf Hj); [lra|].
    intros j' Hj' C. apply (Ho j'); [lia|split; [lia|lra]].
  - rewrite Hps. set (g := fun xp => drop_so m (tilt (a_Efield a) xp)).
    rewrite (nth_indep _ _ (g (0, point0))) by (rewrite map_length, combine_length; lia).
    rewrite map_nth, combine_nth by lia. reflexivity.
Qed.

(** A small device: two layers of the same material, 1 and 2 thick. *)
Definition ex_heap : nat -> qlayer := fun r =>
  {| q_width := match r with 0%nat => 1 | _ => 2 end; q_mat := ex_mat; q_Ec := Some (match r with 0%nat => 5 | _ => 7 end); q_Ev := Some 3 |}.
Definition ex_struct : structure nat := mkStructure [0; 1]%nat [Some "barrier"; Some "well"].
Definition ex_args (mode : string) : pot_args :=
  {| a_step := Some 4%Z; a_min_step := 0%Z; a_feature_steps := 20; a_blur := 0; a_blurmode := "even";
     a_qw := Some 1%nat; a_Efield := 0; a_mode := mode |}.
Lemma ex_run kp8 mode : In mode ["relaxed"; "kp4x4"; "kp6x6"] ->
  exists ps, structure_to_potentials kp8 ex_heap ex_struct (Some ex_sub) (ex_args mode) = Ok (linspace 0 3 4, ps).
Proof.
  intros Hm. unfold structure_to_potentials. simpl a_mode.
  assert (E : exists m, mode_of mode = Some m /\ In m [Relaxed; Kp4; Kp6]).
  { simpl in Hm. repeat destruct Hm as [<-|Hm]; [eexists; split; [reflexivity|simpl; tauto]..|easy]. }
  destruct E as (m & -> & Im). cbn [mesh_size a_step ex_args bindR]. change (4 <? 0)%Z with false. cbv iota.
  assert (W : sumR (map (fun r => q_width (ex_heap r)) (layers ex_struct)) = 3) by (unfold sumR; simpl; lra).
  rewrite W. change (Z.to_nat 4) with 4%nat. cbn [layers ex_struct fill].
  assert (L : forall r b, exists p, layer_point kp8 (ex_heap r) (Some ex_sub) m b = Ok p).
  { intros r b. unfold layer_point. simpl in Im. destruct Im as [<-|[<-|[<-|[]]]]; eexists; reflexivity. }
  destruct (L 0%nat (match a_qw (ex_args mode) with Some r' => Nat.eqb 0 r' | None => false end)) as (p0 & E0).
  destruct (L 1%nat (match a_qw (ex_args mode) with Some r' => Nat.eqb 1 r' | None => false end)) as (p1 & E1).
  rewrite E0. cbn [bindR]. rewrite E1. cbn [bindR]. unfold blurred. cbn [a_blur ex_args].
  destruct (Req_EM_T 0 0) as [_|N]; [|lra]. cbn [bindR]. eexists. reflexivity.
Qed.
Lemma ex_owner : owner (fun r => q_width (ex_heap r)) (layers ex_struct) 1 (nth 1 (linspace 0 3 4) 0).
Proof.
  apply owner_inside; [|simpl; lia|].
  - intros r Hr. simpl in *. destruct r as [|r]; lra.
  - rewrite linspace_nth by lia. unfold start. simpl. lra.
Qed.
Example C93_case : forall kp8, exists ps,
  structure_to_potentials kp8 ex_heap ex_struct (Some ex_sub) (ex_args "relaxed") = Ok (linspace 0 3 4, ps) /\
  nth 1 (linspace 0 3 4) 0 = 1 /\ p_Ve (nth 1 ps point0) = 7 /\ p_well (nth 1 ps point0) = true.
Proof.
  intros kp8. destruct (ex_run kp8 "relaxed" ltac:(simpl; tauto)) as (ps & E). exists ps. split; [assumption|].
  split; [rewrite linspace_nth by lia; simpl; lra|].
  destruct (owner_point _ _ _ _ _ _ _ 1 1 E) as (m & p & Hm & Hp & Hn); [rewrite linspace_length; lia|exact ex_owner|].
  simpl in Hm. injection Hm as <-. cbv in Hm || idtac. unfold layer_point in Hp. cbn in Hp. injection Hp as <-.
  rewrite Hn. cbn. destruct (Req_EM_T 0 0); [|lra]. split; [lra|reflexivity].
Qed.

(** * C55 *)

(** C55, as stated: the hole masses along and across the growth direction written by
    the potential builder are those of the model named by its mode.  Proved for
    electrons, for heavy holes along the growth direction, for light holes across it in
    the 4x4 mode and both light-hole masses in the 6x6 mode; missing are the light-hole
    mass along the growth direction (4x4) and the heavy-hole mass across it (both
    modes), where the code has exchanged two formulas, see below. *)
Theorem C55_masses_partial :
  forall kp8 h s sb a x ps i j,
    structure_to_potentials kp8 h s (Some sb) a = Ok (x, ps) -> (i < length x)%nat ->
    owner (fun r => q_width (h r)) (layers s) j (nth i x 0) ->
    let m := q_mat (h (nth j (layers s) 0%nat)) in
    let p := nth i ps point0 in
    (a_mode a = "kp4x4" -> p_me p = b4_me (kp4x4 m sb) /\ p_mhh_p p = b4_hh_p (kp4x4 m sb) /\ p_mlh_t p = b4_lh_t (kp4x4 m sb)) /\
    (a_mode a = "kp6x6" -> p_me p = b6_me (kp6x6 m sb) /\ p_mhh_p p = b6_hh_p (kp6x6 m sb) /\
       p_mlh_p p = b6_lh_p (kp6x6 m sb) /\ p_mlh_t p = b6_lh_t (kp6x6 m sb)).
Proof.
  intros kp8 h s sb a x ps i j H Hi Ho m p.
  destruct (owner_point _ _ _ _ _ _ _ i j H Hi Ho) as (md & p0 & Hm & Hp & Hn). unfold p. rewrite Hn. clear Hn.
  unfold layer_point in Hp. fold m in Hp.
  destruct (q_Ec _) as [Ec|]; [|discriminate]. destruct (q_Ev _) as [Ev|]; [|discriminate].
  split; intros E; rewrite E in Hm; injection Hm as <-; injection Hp as <-; cbn; repeat split; reflexivity.
Qed.
Print Assumptions C55_masses_partial.
Example C55_case : forall kp8, exists ps,
  structure_to_potentials kp8 ex_heap ex_struct (Some ex_sub) (ex_args "kp4x4") = Ok (linspace 0 3 4, ps) /\
  (1 < length (linspace 0 3 4))%nat /\ owner (fun r => q_width (ex_heap r)) (layers ex_struct) 1 (nth 1 (linspace 0 3 4) 0).
Proof.
  intros kp8. destruct (ex_run kp8 "kp4x4" ltac:(simpl; tauto)) as (ps & E). exists ps. split; [assumption|].
  split; [rewrite linspace_length; lia|exact ex_owner].
Qed.

(** The exchanged formulas: whenever gamma2 is not zero the heavy-hole mass across the
    growth direction and the light-hole mass along it differ from the 4x4 model. *)
Theorem C55_masses_refuted :
  (forall kp8 h s sb a x ps i j,
     structure_to_potentials kp8 h s (Some sb) a = Ok (x, ps) -> (i < length x)%nat ->
     owner (fun r => q_width (h r)) (layers s) j (nth i x 0) -> a_mode a = "kp4x4" ->
     let m := q_mat (h (nth j (layers s) 0%nat)) in
     let p := nth i ps point0 in
     0 < m_g2 m -> 0 < m_g1 m ->
     p_mhh_t p <> b4_hh_t (kp4x4 m sb) /\ p_mlh_p p <> b4_lh_p (kp4x4 m sb) /\
     p_mhh_t p = b4_lh_p (kp4x4 m sb) /\ p_mlh_p p = b4_hh_t (kp4x4 m sb)) /\
  (exists kp8 h s sb a x ps i j,
     structure_to_potentials kp8 h s (Some sb) a = Ok (x, ps) /\ (i < length x)%nat /\
     owner (fun r => q_width (h r)) (layers s) j (nth i x 0) /\ a_mode a = "kp4x4" /\
     p_mhh_t (nth i ps point0) <> b4_hh_t (kp4x4 (q_mat (h (nth j (layers s) 0%nat))) sb)).
Proof.
  assert (G : forall kp8 h s sb a x ps i j,
     structure_to_potentials kp8 h s (Some sb) a = Ok (x, ps) -> (i < length x)%nat ->
     owner (fun r => q_width (h r)) (layers s) j (nth i x 0) -> a_mode a = "kp4x4" ->
     let m := q_mat (h (nth j (layers s) 0%nat)) in
     let p := nth i ps point0 in
     0 < m_g2 m -> 0 < m_g1 m ->
     p_mhh_t p <> b4_hh_t (kp4x4 m sb) /\ p_mlh_p p <> b4_lh_p (kp4x4 m sb) /\
     p_mhh_t p = b4_lh_p (kp4x4 m sb) /\ p_mlh_p p = b4_hh_t (kp4x4 m sb)).
  { intros kp8 h s sb a x ps i j H Hi Ho E m p Hg2 Hg1.
    destruct (owner_point _ _ _ _ _ _ _ i j H Hi Ho) as (md & p0 & Hm & Hp & Hn). unfold p. rewrite Hn. clear Hn.
    unfold layer_point in Hp. fold m in Hp.
    destruct (q_Ec _) as [Ec|]; [|discriminate]. destruct (q_Ev _) as [Ev|]; [|discriminate].
    rewrite E in Hm. injection Hm as <-. injection Hp as <-. cbn.
    assert (D : 1 / (m_g1 m + 2 * m_g2 m) * electron_mass < 1 / (m_g1 m + m_g2 m) * electron_mass).
    { pose proof electron_mass_pos. apply Rmult_lt_compat_r; [assumption|]. unfold Rdiv. rewrite !Rmult_1_l.
      apply Rinv_lt_contravar; [nra|lra]. }
    repeat split; try reflexivity; lra. }
  split; [exact G|].
  destruct (ex_run (fun _ _ => {| b8_c := 0; b8_hh := 0; b8_lh := 0; b8_so := 0; b8_mc := 0; b8_mhh := 0; b8_mlh := 0; b8_mso := 0 |})
    "kp4x4" ltac:(simpl; tauto)) as (ps & E).
  do 9 eexists. split; [exact E|]. split; [|split; [exact ex_owner|split; [reflexivity|]]]; [rewrite linspace_length; lia|].
  destruct (G _ _ _ _ _ _ _ 1%nat 1%nat E) as (N & _); [rewrite linspace_length; lia|exact ex_owner|reflexivity|simpl; lra|simpl; lra|]. exact N.
Qed.
Print Assumptions C55_masses_refuted.

(** * C97 *)

(** C97, as stated: with [blur] the arrays are averaged over that distance.  Refuted:
    no call ever returns a blurred profile.  The window length is a float, so a window
    of three points or more raises, and shorter ones leave the arrays as they are. *)
Definition without_blur (a : pot_args) : pot_args :=
  {| a_step := a_step a; a_min_step := a_min_step a; a_feature_steps := a_feature_steps a; a_blur := 0;
     a_blurmode := a_blurmode a; a_qw := a_qw a; a_Efield := a_Efield a; a_mode := a_mode a |}.
Theorem C97_blur_refuted :
  (forall kp8 h s sub a r, structure_to_potentials kp8 h s sub a = Ok r ->
     structure_to_potentials kp8 h s sub (without_blur a) = Ok r) /\
  (forall kp8 h s sub a x ps n, structure_to_potentials kp8 h s sub (without_blur a) = Ok (x, ps) ->
     mesh_size (map (fun r => q_width (h r)) (layers s)) (a_step a) (a_min_step a) (a_feature_steps a) = Ok n ->
     a_blur a <> 0 ->
     3 <= a_blur a / sumR (map (fun r => q_width (h r)) (layers s)) * IZR n <= INR (length x) ->
     structure_to_potentials kp8 h s sub a = Err TypeError).
Proof.
  split.
  - intros kp8 h s sub a [x ps] H. apply potentials_ok in H as (m & n & fs & Hm & Hn & Hs & Hx & Hf & Hb & Hps).
    unfold structure_to_potentials. cbn [a_mode a_step a_min_step a_feature_steps a_blur a_blurmode a_qw a_Efield without_blur].
    rewrite Hm, Hs. cbn [bindR]. destruct (Z.ltb_spec n 0); [lia|]. rewrite <- Hx, Hf. cbn [bindR].
    unfold blurred. destruct (Req_EM_T 0 0); [|lra]. cbn [bindR]. now rewrite Hps.
  - intros kp8 h s sub a x ps n H Hn Hb Hw. apply potentials_ok in H as (m & n' & fs & Hm & Hn' & Hs & Hx & Hf & _ & Hps).
    cbn [a_mode a_step a_min_step a_feature_steps a_blur a_blurmode a_qw a_Efield without_blur] in *.
    rewrite Hn in Hs. injection Hs as ->.
    unfold structure_to_potentials. rewrite Hm, Hn. cbn [bindR]. destruct (Z.ltb_spec n' 0); [lia|].
    rewrite <- Hx, Hf. cbn [bindR]. unfold blurred. destruct (Req_EM_T (a_blur a) 0); [contradiction|].
    unfold smooth. rewrite repeat_length. cbn [wval].
    destruct (Rlt_dec _ _); [lra|]. destruct (Rlt_dec _ _); [lra|]. reflexivity.
Qed.
Print Assumptions C97_blur_refuted.
Example C97_case : 3 <= 3 / 3 * IZR 4 <= INR (length (linspace 0 3 4)).
Proof. rewrite linspace_length. simpl. lra. Qed.

(** * C98 *)

(** C98, as stated: every well of the structure gets its own random width, within the
    given fraction of the nominal one.  Proved when no layer object occurs twice. *)
Lemma vary_other : forall ls draws h fraction region r,
  (forall lb, In (r, lb) ls -> lb <> Some region) -> vary_loop h ls draws fraction region r = h r.
Proof.
  induction ls as [|[r' lb] ls IH]; intros draws h fraction region r Hr; simpl; [reflexivity|].
  assert (Hr' : forall lb0, In (r, lb0) ls -> lb0 <> Some region) by (intros; apply Hr; now right).
  destruct (label_eqb lb (Some region)) eqn:E; [|now apply IH].
  destruct draws as [|u draws]; [reflexivity|]. rewrite IH by assumption. unfold hset.
  destruct (Nat.eqb_spec r r') as [->|]; [|reflexivity]. apply label_eqb_eq in E. exfalso. apply (Hr lb); [now left|assumption].
Qed.
Theorem C98_varied_wells_partial :
  forall h s draws fraction region,
    NoDup (layers s) -> length (labels s) = length (layers s) ->
    0 <= fraction -> (forall u, In u draws -> 0 <= u < 1) ->
    (length (filter (fun p => label_eqb (snd p) (Some region)) (combine (layers s) (labels s))) <= length draws)%nat ->
    let h' := vary_well_widths h s draws fraction region in
    (forall r, ~ In (r, Some region) (combine (layers s) (labels s)) -> h' r = h r) /\
    (forall r, In (r, Some region) (combine (layers s) (labels s)) ->
       exists k u, nth_error draws k = Some u /\
         nth_error (filter (fun p => label_eqb (snd p) (Some region)) (combine (layers s) (labels s))) k = Some (r, Some region) /\
         q_width (h' r) = q_width (h r) * (1 + (2 * u - 1) * fraction) /\
         (0 <= q_width (h r) -> (1 - fraction) * q_width (h r) <= q_width (h' r) <= (1 + fraction) * q_width (h r)) /\
         q_mat (h' r) = q_mat (h r)).
Proof.
  intros h s draws fraction region Nd Hl Hfr Hd Hlen h'. unfold h', vary_well_widths. clear h'.
  assert (N : NoDup (map fst (combine (layers s) (labels s)))) by (rewrite map_fst_combine by congruence; assumption).
  revert Hlen N. generalize (combine (layers s) (labels s)). intros ls. clear Nd Hl s. split.
  - intros r Hr. apply vary_other. intros lb Hin ->. contradiction.
  - revert h draws Hd Hlen. induction ls as [|[r' lb] ls IH]; intros h draws Hd Hlen r Hr; [contradiction|].
    simpl in N. inversion N as [|? ? Nin N']; subst. simpl. simpl in Hlen.
    destruct (label_eqb lb (Some region)) eqn:E.
    + apply label_eqb_eq in E. subst lb. destruct draws as [|u draws]; [simpl in Hlen; lia|].
      destruct (Nat.eq_dec r r') as [->|Hne].
      * exists 0%nat, u. rewrite vary_other.
        2:{ intros lb Hin _. apply Nin. apply in_map_iff. now exists (r', lb). }
        unfold hset. rewrite Nat.eqb_refl. simpl. split; [reflexivity|]. split; [reflexivity|]. split; [reflexivity|]. split; [|reflexivity].
        intros Hw. pose proof (Hd u ltac:(now left)).
        assert (0 <= q_width (h r') * fraction) by (apply Rmult_le_pos; assumption). split; nra.
      * destruct Hr as [Hr|Hr]; [congruence|].
        set (h1 := hset h r' _).
        destruct (IH N' h1 draws) with (r := r) as (k & u' & K1 & K2 & K3 & K4 & K5);
          [intros; apply Hd; now right|simpl in Hlen; lia|assumption|].
        assert (Eh : h1 r = h r) by (unfold h1, hset; now rewrite (proj2 (Nat.eqb_neq r r') Hne)).
        rewrite Eh in *. exists (S k), u'. split; [assumption|]. split; [assumption|]. split; [assumption|]. split; assumption.
    + destruct Hr as [Hr|Hr]; [injection Hr as -> ->; rewrite (proj2 (label_eqb_eq _ _) eq_refl) in E; discriminate|].
      apply IH; assumption.
Qed.
Print Assumptions C98_varied_wells_partial.
Example C98_case :
  NoDup (layers ex_struct) /\ length (labels ex_struct) = length (layers ex_struct) /\
  In (1%nat, Some "well") (combine (layers ex_struct) (labels ex_struct)).
Proof. split; [repeat constructor; simpl; intuition discriminate|]. split; [reflexivity|simpl; tauto]. Qed.

(** In the structures built by [assemble_qw_structure] all wells are the same object:
    they all end up with the same width, which may be outside the bounds. *)
Theorem C98_shared_well_refuted :
  (forall h fresh well top bottom barrier u1 u2 fraction,
     NoDup [well; top; bottom; barrier; fresh] ->
     let h1 := fst (assemble_qw_structure h fresh 2 well top bottom barrier None) in
     let s := snd (assemble_qw_structure h fresh 2 well top bottom barrier None) in
     q_width (vary_well_widths h1 s [u1; u2] fraction "well" well) =
       q_width (h well) * (1 + (2 * u1 - 1) * fraction) * (1 + (2 * u2 - 1) * fraction)) /\
  (exists u1 u2 fraction w, 0 <= u1 < 1 /\ 0 <= u2 < 1 /\ 0 < fraction < 1 /\ 0 < w /\
     w * (1 + (2 * u1 - 1) * fraction) * (1 + (2 * u2 - 1) * fraction) > (1 + fraction) * w).
Proof.
  split.
  - intros h fresh well top bottom barrier u1 u2 fraction Nd h1 s.
    unfold vary_well_widths. fold (pairs_of s). unfold s. rewrite (proj1 (assemble_pairs h fresh 2 well top bottom barrier None)).
    inversion Nd as [|? ? N1 _]; subst. assert (Hne : well <> fresh) by (intros ->; apply N1; simpl; tauto).
    assert (S1 : forall h r l, hset h r l r = l) by (intros; unfold hset; now rewrite Nat.eqb_refl).
    assert (E : h1 well = h well).
    { unfold h1, assemble_qw_structure, hset. simpl. now rewrite (proj2 (Nat.eqb_neq well fresh) Hne). }
    change (Z.to_nat (2 - 1)) with 1%nat. cbn [repeat concat app vary_loop label_eqb String.eqb Ascii.eqb Bool.eqb].
    rewrite !S1. cbn [q_width]. now rewrite E.
  - exists (9 / 10), (9 / 10), (1 / 2), 1. lra.
Qed.
Print Assumptions C98_shared_well_refuted.
Example C98_shared_case : NoDup [1; 0; 3; 2; 9]%nat.
Proof. repeat constructor; simpl; intuition discriminate. Qed.
