(** Properties C70 (layer count of a device), C66 (joining the branches of an IV curve)
    and C106 (voltages the solver visits). *)
From Coq Require Import Reals String List Bool ZArith Arith Lra Lia Psatz.
From Verif Require Import Common InterpModel InterpProps NpModel PhysConst PddModel.
From Coq Require Import List.
Import ListNotations.
Open Scope R_scope.
Open Scope string_scope.
Open Scope list_scope.

(** * C70: the recorded number of layers *)

(** The layers that can be read: the ones before the first failure. *)
Inductive appended (dflt : string -> R) (T : R) : list layer -> list (list (string * R)) -> Prop :=
| app_nil : appended dflt T [] []
| app_stop l ls e : get_layer_properties dflt l T = Err e -> appended dflt T (l :: ls) []
| app_more l ls p ps : get_layer_properties dflt l T = Ok p -> appended dflt T ls ps -> appended dflt T (l :: ls) (p :: ps).

Definition counted (d : device) : Prop :=
  d_numlayers d = Z.of_nat (length (d_layers d)) /\ Forall (fun l => dl_numlayers l = 1%Z) (d_layers d).

Lemma add_layers_spec dflt ls : forall d, counted d ->
  let d' := fst (add_layers dflt d ls) in
  counted d' /\ d_T d' = d_T d /\ d_sn d' = d_sn d /\ d_sp d' = d_sp d /\
  exists ps, appended dflt (d_T d) ls ps /\ map dl_properties (d_layers d') = map dl_properties (d_layers d) ++ ps /\
             (snd (add_layers dflt d ls) = Ok tt <-> length ps = length ls).
Proof.
  induction ls as [|l ls IH]; intros d Hc; cbn [add_layers fst snd].
  - repeat split; try apply Hc. exists []. split; [constructor|]. rewrite app_nil_r. split; [reflexivity|]. now split.
  - destruct (get_layer_properties dflt l (d_T d)) as [p|e] eqn:E.
    + match goal with |- context [add_layers dflt ?d1 ls] => set (d2 := d1) end.
      assert (Hc2 : counted d2).
      { destruct Hc as [H1 H2]. split; unfold d2; simpl.
        - rewrite H1, app_length. simpl. lia.
        - apply Forall_app. split; [assumption|]. constructor; [reflexivity|constructor]. }
      destruct (IH d2 Hc2) as (C & HT & Hn & Hp & ps & A & B & D). cbv zeta.
      split; [assumption|]. split; [rewrite HT; reflexivity|]. split; [rewrite Hn; reflexivity|]. split; [rewrite Hp; reflexivity|].
      exists (p :: ps). split; [now constructor|]. split.
      * rewrite B. unfold d2. simpl. rewrite map_app, <- app_assoc. reflexivity.
      * rewrite D. simpl. split; lia.
    + cbv zeta. cbn [fst snd]. split; [assumption|]. repeat split. exists []. split; [econstructor; eassumption|].
      rewrite app_nil_r. split; [reflexivity|]. split; discriminate.
Qed.

Lemma py_index_spec n i j : py_index n i = Some j <->
  (j < n)%nat /\ (Z.of_nat j = i \/ Z.of_nat j = i + Z.of_nat n)%Z /\ (0 <= i -> Z.of_nat j = i)%Z.
Proof.
  unfold py_index. destruct (Z.ltb_spec i 0) as [H|H].
  - destruct (Z.leb_spec 0 (i + Z.of_nat n)), (Z.ltb_spec (i + Z.of_nat n) (Z.of_nat n)); simpl;
      (split; [intros E; try discriminate E; injection E as <-; lia|intros E; try (f_equal; lia); try lia]).
  - destruct (Z.leb_spec 0 i), (Z.ltb_spec i (Z.of_nat n)); simpl;
      (split; [intros E; try discriminate E; injection E as <-; lia|intros E; try (f_equal; lia); try lia]).
Qed.
Lemma py_index_none n i : py_index n i = None <-> (i < - Z.of_nat n \/ Z.of_nat n <= i)%Z.
Proof.
  unfold py_index. destruct (Z.ltb_spec i 0) as [H|H].
  - destruct (Z.leb_spec 0 (i + Z.of_nat n)), (Z.ltb_spec (i + Z.of_nat n) (Z.of_nat n)); simpl;
      (split; [intros E; try discriminate E; lia|intros E; try reflexivity; lia]).
  - destruct (Z.leb_spec 0 i), (Z.ltb_spec i (Z.of_nat n)); simpl;
      (split; [intros E; try discriminate E; lia|intros E; try reflexivity; lia]).
Qed.

Lemma remove_counted d i : counted d -> counted (fst (remove_layer d i)).
Proof.
  intros [H1 H2]. unfold remove_layer. destruct (py_index _ _) as [j|] eqn:E; [|now split].
  apply py_index_spec in E as (Hj & _). split; cbn [fst d_numlayers d_layers].
  - rewrite app_length, firstn_length, skipn_length. lia.
  - rewrite <- (firstn_skipn j (d_layers d)) in H2. apply Forall_app in H2 as [F1 F2]. apply Forall_app. split; [exact F1|].
    destruct (skipn j (d_layers d)) as [|x t] eqn:Es.
    + assert (length (skipn j (d_layers d)) = 0)%nat by now rewrite Es. rewrite skipn_length in H. lia.
    + replace (skipn (S j) (d_layers d)) with t; [now inversion F2|]. change t with (tl (x :: t)). rewrite <- Es.
      clear. generalize (d_layers d). induction j as [|j IH]; intros l; destruct l; try reflexivity. simpl. apply IH.
Qed.

(** Property C70.  After every history of AddLayers and RemoveLayer, failing ones
    included, the recorded number is the number of layers; adding appends, in order, the
    properties of the layers before the first one whose material cannot be read; a
    removal with a valid index, counted from the end if negative, takes away exactly
    that layer, and any other index raises IndexError and changes nothing. *)
Theorem C70_layer_count dflt T sn sp os :
  let d := run dflt (Device T 0 [] sn sp) os in
  d_numlayers d = Z.of_nat (length (d_layers d)) /\
  (forall ls, exists ps, appended dflt (d_T d) ls ps /\
     map dl_properties (d_layers (step dflt d (OpAdd ls))) = map dl_properties (d_layers d) ++ ps) /\
  (forall i, (i < - Z.of_nat (length (d_layers d)) \/ Z.of_nat (length (d_layers d)) <= i)%Z ->
     remove_layer d i = (d, Err IndexError)) /\
  (forall a x b i, d_layers d = a ++ x :: b ->
     (i = Z.of_nat (length a) \/ i = - Z.of_nat (S (length b)))%Z ->
     snd (remove_layer d i) = Ok tt /\ d_layers (fst (remove_layer d i)) = a ++ b /\
     d_numlayers (fst (remove_layer d i)) = Z.of_nat (length a + length b)).
Proof.
  assert (Hc : forall os d, counted d -> counted (run dflt d os)).
  { clear. induction os as [|o os IH]; intros d H; [exact H|]. simpl. apply IH. destruct o as [ls|i]; cbn [step].
    - apply (add_layers_spec dflt ls d H).
    - now apply remove_counted. }
  intros d. assert (H : counted d) by (apply Hc; split; [reflexivity|constructor]). clearbody d. clear Hc.
  split; [apply H|]. split; [|split].
  - intros ls. destruct (add_layers_spec dflt ls d H) as (_ & _ & _ & _ & ps & A & B & _). exists ps. split; [exact A|exact B].
  - intros i Hi. unfold remove_layer. apply py_index_none in Hi. now rewrite Hi.
  - intros a x b i E Hi. unfold remove_layer.
    assert (L : length (d_layers d) = (length a + S (length b))%nat) by (rewrite E, app_length; reflexivity).
    assert (P : py_index (length (d_layers d)) i = Some (length a)).
    { apply py_index_spec. rewrite L. split; [lia|]. destruct Hi as [-> | ->].
      - split; [now left|now intros].
      - split; [right; lia|intros; lia]. }
    rewrite P. cbn [fst snd d_layers d_numlayers]. split; [reflexivity|]. split.
    + rewrite E. rewrite firstn_app, firstn_all, Nat.sub_diag. cbn [firstn]. rewrite app_nil_r.
      rewrite skipn_app. rewrite skipn_all2 by lia. replace (S (length a) - length a)%nat with 1%nat by lia. reflexivity.
    + destruct H as [H _]. rewrite H, L. lia.
Qed.

(** A layer that reads and one that does not. *)
Definition plain (w : R) : layer :=
  Layer w (fun k => if String.eqb k "band_gap" then Ok (2 * q) else if String.eqb k "Nd" then Err ValueError else Ok 1).
Definition broken : layer := Layer 1 (fun k => Err KeyError).
Example C70_case :
  let d := run (fun _ => 1) (Device 300 0 [] 1 1) [OpAdd [plain 1; broken; plain 2]; OpRemove 5; OpAdd [plain 3]; OpRemove (-1)] in
  d_numlayers d = 1%Z /\ map (fun l => lookup "width" (dl_properties l)) (d_layers d) = [Some 1].
Proof. split; reflexivity. Qed.

(** * C66: joining the two branches *)

Definition decreasing (l : list R) : Prop := forall i j, (i < j < length l)%nat -> at_ l j < at_ l i.

Lemma join_keys_spec pos neg r : join_keys pos neg = Ok r ->
  map fst r = map fst neg /\
  forall k, match lookup k r with
            | Some l => exists p n, lookup k pos = Some p /\ lookup k neg = Some n /\ l = rev (tl n) ++ p
            | None => lookup k neg = None
            end.
Proof.
  revert r. induction neg as [|[k l] neg IH]; intros r; cbn [join_keys].
  - intros [= <-]. split; [reflexivity|]. intros k. reflexivity.
  - destruct (lookup k pos) as [p|] eqn:Ep; [|discriminate]. destruct (join_keys pos neg) as [r'|] eqn:E; cbn [bindR]; [|discriminate].
    intros [= <-]. destruct (IH r' eq_refl) as [I1 I2]. split; [cbn [map fst]; now rewrite I1|].
    intros k'. unfold lookup. cbn [find fst]. destruct (String.eqb_spec k k') as [<-|Hk]; cbn [snd].
    + exists p, l. repeat split. exact Ep.
    + specialize (I2 k'). unfold lookup in I2. exact I2.
Qed.

Lemma rev_tl_at n i : (i < length n - 1)%nat -> at_ (rev (tl n)) i = at_ n (length n - 1 - i).
Proof.
  destruct n as [|a n]; simpl; [lia|]. intros Hi. rewrite rev_nth by lia.
  replace (length n - 0 - i)%nat with (S (length n - S i)) by lia. reflexivity.
Qed.
Lemma rev_tl_length (n : list R) : length (rev (tl n)) = (length n - 1)%nat.
Proof. rewrite rev_length. destruct n; simpl; lia. Qed.

Lemma joined_at n p i : (1 <= length n)%nat -> (i < length n - 1 + length p)%nat ->
  at_ (rev (tl n) ++ p) i = if (i <? length n - 1)%nat then at_ n (length n - 1 - i) else at_ p (i - (length n - 1)).
Proof.
  intros Hn Hi. destruct (Nat.ltb_spec i (length n - 1)) as [H|H].
  - rewrite app_nth1 by (rewrite rev_tl_length; lia). now apply rev_tl_at.
  - rewrite app_nth2 by (rewrite rev_tl_length; lia). now rewrite rev_tl_length.
Qed.

(** Property C66.  Two branches with the same quantities, of equal lengths within each,
    the positive one going up from zero bias and the negative one going down from zero
    bias, are joined into one table: the voltages increase strictly, every voltage of
    either branch is there, zero bias once, and each row of the result is a row of one
    of the branches with all its quantities. *)
Theorem C66_branches (pos neg : ivdict) (vp vn : list R) :
  map fst pos = map fst neg -> NoDup (map fst neg) ->
  lookup "V" pos = Some vp -> lookup "V" neg = Some vn ->
  (forall k l, lookup k pos = Some l -> length l = length vp) ->
  (forall k l, lookup k neg = Some l -> length l = length vn) ->
  increasing vp -> decreasing vn -> (1 <= length vp)%nat -> (1 <= length vn)%nat -> at_ vp 0 = 0 -> at_ vn 0 = 0 ->
  exists total v, consolidate_iv pos neg = Ok total /\ map fst total = map fst neg /\ lookup "V" total = Some v /\
    increasing v /\ length v = (length vp + length vn - 1)%nat /\
    (forall x, In x v <-> In x vp \/ In x vn) /\
    (forall i, (i < length v)%nat -> exists src j,
       (src = pos /\ (j < length vp)%nat \/ src = neg /\ (0 < j < length vn)%nat) /\
       forall k, In k (map fst neg) -> exists l s, lookup k total = Some l /\ lookup k src = Some s /\ at_ l i = at_ s j).
Proof.
  intros Hk Hnd Vp Vn Lp Ln Ip Dn Hp Hn Zp Zn.
  assert (In_look : forall (d : ivdict) k, In k (map fst d) -> exists l, lookup k d = Some l).
  { clear. induction d as [|[k' l] d IH]; intros k H; [destruct H|]. unfold lookup. cbn [find fst].
    destruct (String.eqb_spec k' k) as [->|Hne]; [exists l; reflexivity|].
    destruct H as [H|H]; [now elim Hne|]. destruct (IH k H) as [l' E]. exists l'. exact E. }
  assert (look_In : forall (d : ivdict) k l, lookup k d = Some l -> In k (map fst d)).
  { clear. induction d as [|[k' l'] d IH]; intros k l H; [discriminate H|]. unfold lookup in H. cbn [find fst] in H.
    destruct (String.eqb_spec k' k) as [->|Hne]; [now left|]. right. exact (IH k l H). }
  assert (J : exists total, join_keys pos neg = Ok total).
  { assert (Hsub : forall k, In k (map fst neg) -> exists l, lookup k pos = Some l).
    { intros k H. apply In_look. rewrite Hk. exact H. }
    clear - Hsub. induction neg as [|[k l] neg IH]; [eexists; reflexivity|]. cbn [join_keys].
    destruct (Hsub k ltac:(now left)) as [p Ep]. rewrite Ep. destruct IH as [t Et]; [intros k' H; apply Hsub; now right|].
    rewrite Et. cbn [bindR]. eexists; reflexivity. }
  destruct J as [total J]. destruct (join_keys_spec pos neg total J) as [K1 K2].
  exists total, (rev (tl vn) ++ vp).
  assert (Ev : lookup "V" total = Some (rev (tl vn) ++ vp)).
  { specialize (K2 "V"). destruct (lookup "V" total) as [l|].
    - destruct K2 as (p & n & E1 & E2 & ->). rewrite Vp in E1. rewrite Vn in E2. injection E1 as <-. injection E2 as <-. reflexivity.
    - rewrite Vn in K2. discriminate. }
  assert (Len : length (rev (tl vn) ++ vp) = (length vp + length vn - 1)%nat) by (rewrite app_length, rev_tl_length; lia).
  split. { unfold consolidate_iv. destruct pos as [|e pos]; [discriminate Vp|]. destruct neg as [|e' neg]; [discriminate Vn|]. exact J. }
  split; [exact K1|]. split; [exact Ev|]. split; [|split; [exact Len|split]].
  - intros i j Hij. rewrite Len in Hij. rewrite !joined_at by lia.
    destruct (Nat.ltb_spec i (length vn - 1)) as [Hi|Hi], (Nat.ltb_spec j (length vn - 1)) as [Hj|Hj]; try lia.
    + apply Dn. lia.
    + assert (at_ vn (length vn - 1 - i) < at_ vn 0) by (apply Dn; lia).
      assert (at_ vp 0 <= at_ vp (j - (length vn - 1))) by (apply increasing_le; [assumption|lia]). lra.
    + apply Ip. lia.
  - intros x. rewrite in_app_iff, <- in_rev. split.
    + intros [H|H]; [right|now left]. destruct vn; [destruct H|now right].
    + intros [H|H]; [now right|]. destruct vn as [|a vn]; [destruct H|]. destruct H as [<-|H]; [|now left].
      right. simpl in Zn. rewrite Zn, <- Zp. apply nth_In. lia.
  - intros i Hi. rewrite Len in Hi. destruct (Nat.ltb_spec i (length vn - 1)) as [H|H].
    + exists neg, (length vn - 1 - i)%nat. split; [right; split; [reflexivity|lia]|]. intros k Hin.
      destruct (In_look neg k Hin) as [n En]. specialize (K2 k). destruct (lookup k total) as [l|] eqn:El; [|rewrite En in K2; discriminate].
      destruct K2 as (p & n' & E1 & E2 & ->). rewrite En in E2. injection E2 as <-. exists (rev (tl n) ++ p), n. repeat split.
      * exact En.
      * rewrite joined_at by (rewrite ?(Ln k n En), ?(Lp k p E1); lia). rewrite (Ln k n En). apply Nat.ltb_lt in H. now rewrite H.
    + exists pos, (i - (length vn - 1))%nat. split; [left; split; [reflexivity|lia]|]. intros k Hin.
      destruct (In_look neg k Hin) as [n En]. specialize (K2 k). destruct (lookup k total) as [l|] eqn:El; [|rewrite En in K2; discriminate].
      destruct K2 as (p & n' & E1 & E2 & ->). rewrite En in E2. injection E2 as <-. exists (rev (tl n) ++ p), p. repeat split.
      * exact E1.
      * rewrite joined_at by (rewrite ?(Ln k n En), ?(Lp k p E1); lia). rewrite (Ln k n En).
        replace (i <? length vn - 1)%nat with false by (symmetry; apply Nat.ltb_ge; lia). reflexivity.
Qed.

Example C66_case :
  consolidate_iv [("V", [0; 1; 2]); ("J", [5; 6; 7])] [("V", [0; -1; -2]); ("J", [5; 4; 3])]
  = Ok [("V", [-2; -1; 0; 1; 2]); ("J", [3; 4; 5; 6; 7])] /\
  increasing [0; 1; 2] /\ decreasing [0; -1; -2].
Proof.
  split; [reflexivity|]. split; intros [|[|[|i]]] [|[|[|j]]] Hij; simpl in *; try lia; lra.
Qed.

(** * C106: the voltages visited *)

(** 0, s, 2s, ... *)
Definition ramp (s : R) (n : nat) : list R := map (fun i => INR i * s) (seq 0 n).
Lemma ramp_length s n : length (ramp s n) = n.
Proof. unfold ramp. now rewrite map_length, seq_length. Qed.
Lemma ramp_at s n i : (i < n)%nat -> at_ (ramp s n) i = INR i * s.
Proof.
  intros H. unfold ramp. rewrite nth_indep with (d' := INR 0 * s) by (rewrite map_length, seq_length; lia).
  rewrite (map_nth (fun i => INR i * s) (seq 0 n) 0%nat i). rewrite seq_nth by lia. reflexivity.
Qed.

Lemma runiv_loop_up s vend : 0 < s -> forall fuel i0, vend < INR (i0 + fuel) * s -> (1 <= fuel)%nat ->
  exists n, runiv_loop fuel s vend (INR i0 * s) = Some (map (fun i => INR i * s) (seq i0 (S n))) /\
    (INR (i0 + n) * s <= vend \/ n = 0%nat) /\ vend < INR (i0 + S n) * s.
Proof.
  intros Hs. induction fuel as [|fuel IH]; intros i0 Hlt Hf; [lia|]. cbn [runiv_loop].
  destruct (Rlt_dec 0 s) as [_|]; [|lra].
  assert (E : INR i0 * s + s = INR (S i0) * s) by (rewrite S_INR; ring). rewrite E.
  rewrite Rmax_left by (rewrite S_INR; nra).
  destruct (Rle_dec (INR (S i0) * s) vend) as [Hle|Hgt].
  - destruct fuel as [|fuel]; [rewrite Nat.add_1_r in Hlt; lra|].
    destruct (IH (S i0)) as (n & E1 & E2 & E3).
    { replace (S i0 + S fuel)%nat with (i0 + S (S fuel))%nat by lia. exact Hlt. }
    { lia. }
    rewrite E1. exists (S n). split; [reflexivity|]. replace (i0 + S n)%nat with (S i0 + n)%nat by lia.
    replace (i0 + S (S n))%nat with (S i0 + S n)%nat by lia. split; [|exact E3].
    left. destruct E2 as [E2| ->]; [exact E2|]. rewrite Nat.add_0_r. exact Hle.
  - exists 0%nat. split; [reflexivity|]. split; [now right|]. rewrite Nat.add_1_r. lra.
Qed.
Lemma runiv_loop_down s vend : s < 0 -> forall fuel i0, INR (i0 + fuel) * s < vend -> (1 <= fuel)%nat ->
  exists n, runiv_loop fuel s vend (INR i0 * s) = Some (map (fun i => INR i * s) (seq i0 (S n))) /\
    (vend <= INR (i0 + n) * s \/ n = 0%nat) /\ INR (i0 + S n) * s < vend.
Proof.
  intros Hs. induction fuel as [|fuel IH]; intros i0 Hlt Hf; [lia|]. cbn [runiv_loop].
  destruct (Rlt_dec 0 s) as [|_]; [lra|].
  assert (E : INR i0 * s + s = INR (S i0) * s) by (rewrite S_INR; ring). rewrite E.
  rewrite Rmin_left by (rewrite S_INR; nra).
  destruct (Rle_dec vend (INR (S i0) * s)) as [Hle|Hgt].
  - destruct fuel as [|fuel]; [rewrite Nat.add_1_r in Hlt; lra|].
    destruct (IH (S i0)) as (n & E1 & E2 & E3).
    { replace (S i0 + S fuel)%nat with (i0 + S (S fuel))%nat by lia. exact Hlt. }
    { lia. }
    rewrite E1. exists (S n). split; [reflexivity|]. replace (i0 + S n)%nat with (S i0 + n)%nat by lia.
    replace (i0 + S (S n))%nat with (S i0 + S n)%nat by lia. split; [|exact E3].
    left. destruct E2 as [E2| ->]; [exact E2|]. rewrite Nat.add_0_r. exact Hle.
  - exists 0%nat. split; [reflexivity|]. split; [now right|]. rewrite Nat.add_1_r. lra.
Qed.

Lemma INR_up x : 0 <= x -> x < INR (Z.to_nat (up x)).
Proof.
  intros Hx. destruct (archimed x) as [H1 H2]. rewrite INR_IZR_INZ, Z2Nat.id; [lra|].
  assert (0 < IZR (up x)) by lra. apply lt_IZR in H. lia.
Qed.

(** Property C106.  With a voltage limit and a step of the same sign the solver visits
    0, s, 2s, ... up to the last multiple that does not pass the limit by more than a
    tenth of a step: the loop ends, the points are one step apart, and the next one
    would pass.  The step used by calculate_iv has the sign of the limit whatever the
    sign of the spacing of the grid. *)
Theorem C106_solver_voltages (vfin s : R) : s <> 0 -> 0 < vfin * s ->
  exists n, runiv_voltages vfin s = Some (ramp s (S n)) /\
    (forall i, (i <= n)%nat -> Rabs (INR i * s) <= Rabs vfin + Rabs s / 10) /\
    Rabs vfin + Rabs s / 10 < Rabs (INR (S n) * s).
Proof.
  intros Hs Hv. unfold runiv_voltages. set (vend := vfin + 1 / 10 * s).
  assert (Hf : Rabs (vend / s) < INR (Z.to_nat (up (Rabs (vend / s))))) by (apply INR_up, Rabs_pos).
  set (k := Z.to_nat (up (Rabs (vend / s)))) in *. clearbody k.
  destruct (Rlt_or_le 0 s) as [Hp|Hp].
  - assert (0 < vfin) by nra. assert (Hve : 0 < vend / s) by (apply Rdiv_lt_0_compat; [unfold vend; lra|assumption]).
    rewrite Rabs_right in Hf by lra.
    assert (Hb : vend < INR (0 + (k + 2)) * s).
    { rewrite Nat.add_0_l, plus_INR. change (INR 2) with 2. replace vend with (vend / s * s) by (field; lra).
      apply Rmult_lt_compat_r; lra. }
    destruct (runiv_loop_up s vend Hp (k + 2) 0 Hb ltac:(lia)) as (n & E1 & E2 & E3).
    exists n. rewrite Rmult_0_l in E1. split; [exact E1|]. simpl plus in E2, E3.
    rewrite (Rabs_right vfin), (Rabs_right s) by lra. split.
    + intros i Hi. assert (0 <= INR i) by apply pos_INR. assert (INR i <= INR n) by now apply le_INR.
      rewrite Rabs_right by nra. destruct E2 as [E2| ->]; unfold vend in *; [nra|]. assert (INR i = 0) as -> by (simpl in *; lra). lra.
    + rewrite Rabs_right; [unfold vend in *; lra|]. rewrite S_INR. assert (0 <= INR n) by apply pos_INR. nra.
  - assert (s < 0) by lra. assert (vfin < 0) by nra.
    assert (Hve : 0 < vend / s).
    { replace (vend / s) with (- vend / - s) by (field; lra). apply Rdiv_lt_0_compat; unfold vend; lra. }
    rewrite Rabs_right in Hf by lra.
    assert (Hb : INR (0 + (k + 2)) * s < vend).
    { rewrite Nat.add_0_l, plus_INR. change (INR 2) with 2. replace vend with (vend / s * s) by (field; lra). nra. }
    destruct (runiv_loop_down s vend H (k + 2) 0 Hb ltac:(lia)) as (n & E1 & E2 & E3).
    exists n. rewrite Rmult_0_l in E1. split; [exact E1|]. simpl plus in E2, E3.
    rewrite (Rabs_left vfin), (Rabs_left s) by lra. split.
    + intros i Hi. assert (0 <= INR i) by apply pos_INR. assert (INR i <= INR n) by now apply le_INR.
      rewrite Rabs_left1 by nra. destruct E2 as [E2| ->]; unfold vend in *; [nra|]. assert (INR i = 0) as -> by (simpl in *; lra). lra.
    + rewrite Rabs_left1; [unfold vend in *; lra|]. rewrite S_INR. assert (0 <= INR n) by apply pos_INR. nra.
Qed.

Lemma runiv_voltages_uniq vfin s n : s <> 0 -> 0 < vfin * s ->
  INR n * Rabs s <= Rabs vfin + Rabs s / 10 < INR (S n) * Rabs s -> runiv_voltages vfin s = Some (ramp s (S n)).
Proof.
  intros Hs Hv Hn. destruct (C106_solver_voltages vfin s Hs Hv) as (m & E & M1 & M2). rewrite E. do 3 f_equal.
  assert (Ha : 0 < Rabs s) by now apply Rabs_pos_lt.
  rewrite Rabs_mult, (Rabs_right (INR (S m))) in M2 by (apply Rle_ge, pos_INR).
  specialize (M1 m ltac:(lia)). rewrite Rabs_mult, (Rabs_right (INR m)) in M1 by (apply Rle_ge, pos_INR).
  assert (INR m < INR (S n)) by nra. assert (INR n < INR (S m)) by nra. apply INR_lt in H, H0. lia.
Qed.

(** A limit of 1.05 V with steps of 0.25 V downwards: 0, -0.25, ..., -1. *)
Example C106_case : runiv_voltages (- (105 / 100)) (- (1 / 4)) = Some (ramp (- (1 / 4)) 5).
Proof.
  apply runiv_voltages_uniq; try lra. rewrite !Rabs_left1 by lra. simpl. lra.
Qed.
