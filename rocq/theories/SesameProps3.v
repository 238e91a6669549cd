(** Property C68: the meshes of the Sesame driver. *)
From Coq Require Import Reals ZArith String List Arith Bool Lia Lra Psatz Permutation Sorted.
From Verif Require Import Common NumModel InterpModel InterpProps NpModel PhysConst SesameModel SesameProps.
Import ListNotations.
Open Scope R_scope.
Open Scope list_scope.

(** * Specification *)
(** A strictly increasing mesh from [a] to [b]. *)
Definition mesh_of (a b : R) (m : list R) : Prop :=
  increasing m /\ m <> [] /\ nth 0 m 0 = a /\ nth (length m - 1) m 0 = b.

(** * Strictly sorted lists *)
Lemma ssorted_increasing l : StronglySorted Rlt l -> increasing l.
Proof.
  induction l as [|x l IH]; intros S i j H; [cbn [length] in H; lia|]. inversion S as [|? ? S1 S2]; subst. rewrite Forall_forall in S2.
  destruct j as [|j]; [lia|]. cbn [length] in H. destruct i as [|i]; cbn [nth]; [apply S2, nth_In; lia|apply IH; auto; lia].
Qed.
Lemma increasing_ssorted l : increasing l -> StronglySorted Rlt l.
Proof.
  induction l as [|x l IH]; intros Sx; [constructor|]. constructor; [apply IH, (increasing_tail x), Sx|].
  apply Forall_forall. intros y I. destruct (In_nth _ _ 0 I) as (k & Hk & <-). apply (Sx 0%nat (S k)). cbn [length]. lia.
Qed.
Lemma ssorted_app l m : StronglySorted Rlt l -> StronglySorted Rlt m -> (forall a b, In a l -> In b m -> a < b) -> StronglySorted Rlt (l ++ m).
Proof.
  induction l as [|x l IH]; intros S T H; [assumption|]. inversion S as [|? ? S1 S2]; subst. cbn. constructor.
  - apply IH; auto. intros a b I J. apply H; [right|]; assumption.
  - apply Forall_app. split; [assumption|]. apply Forall_forall. intros b J. apply H; [left; reflexivity|assumption].
Qed.
Lemma ssorted_map_seq (f : nat -> R) s n : (forall i j, (s <= i < j)%nat -> (j < s + n)%nat -> f i < f j) -> StronglySorted Rlt (map f (seq s n)).
Proof.
  revert s. induction n as [|n IH]; intros s H; [constructor|]. cbn [seq map]. constructor.
  - apply IH. intros i j A B. apply H; lia.
  - apply Forall_forall. intros y I. apply in_map_iff in I. destruct I as (j & <- & I). apply in_seq in I. apply H; lia.
Qed.
Lemma ssorted_bounds a b m : StronglySorted Rlt m -> In a m -> In b m -> (forall x, In x m -> a <= x <= b) -> mesh_of a b m.
Proof.
  intros Sm Ia Ib H. assert (I := ssorted_increasing m Sm). split; [assumption|]. assert (Hn : m <> []) by (intros ->; destruct Ia).
  assert (L : (0 < length m)%nat) by (destruct m; [congruence|cbn; lia]). split; [assumption|]. split.
  - destruct (In_nth _ _ 0 Ia) as (k & Hk & Ek). assert (B := H (nth 0 m 0) ltac:(apply nth_In; lia)).
    destruct k as [|k]; [assumption|]. assert (nth 0 m 0 < nth (S k) m 0) by (apply I; lia). lra.
  - destruct (In_nth _ _ 0 Ib) as (k & Hk & Ek). assert (B := H (nth (length m - 1) m 0) ltac:(apply nth_In; lia)).
    destruct (Nat.eq_dec k (length m - 1)) as [<-|N]; [assumption|]. assert (nth k m 0 < nth (length m - 1) m 0) by (apply I; lia). lra.
Qed.

(** [np.unique]. *)
Lemma dedup_in x l : In x (dedup l) <-> In x l.
Proof.
  induction l as [|a [|b l] IH]; [tauto|tauto|]. change (dedup (a :: b :: l)) with (if Req_EM_T a b then dedup (b :: l) else a :: dedup (b :: l)).
  destruct (Req_EM_T a b) as [->|N]; [rewrite IH; cbn [In]; tauto|]. cbn [In] in *. rewrite IH. tauto.
Qed.
Lemma dedup_sorted l : StronglySorted Rle l -> StronglySorted Rlt (dedup l).
Proof.
  induction l as [|a [|b l] IH]; intros S; [constructor|repeat constructor|]. inversion S as [|? ? S1 S2]; subst.
  change (dedup (a :: b :: l)) with (if Req_EM_T a b then dedup (b :: l) else a :: dedup (b :: l)).
  destruct (Req_EM_T a b) as [->|N]; [auto|]. constructor; [auto|]. apply Forall_forall. intros y I. apply (proj1 (dedup_in _ _)) in I.
  rewrite Forall_forall in S2. assert (a <= b) by (apply S2; left; reflexivity). inversion S1 as [|? ? S3 S4]; subst. rewrite Forall_forall in S4.
  destruct I as [<-|I]; [lra|]. specialize (S4 y I). lra.
Qed.
Lemma unique_in x l : In x (np_unique l) <-> In x l.
Proof. unfold np_unique. rewrite dedup_in. split; apply Permutation_in; [apply Permutation_sym|]; apply np_sort_perm. Qed.
Lemma unique_sorted l : StronglySorted Rlt (np_unique l).
Proof. apply dedup_sorted, np_sort_sorted. Qed.

(** [np.arange]. *)
Lemma arange_facts a b s l : 0 < s -> arange a b s = Ok l ->
  StronglySorted Rlt l /\ (forall x, In x l -> a <= x < b) /\ (a < b -> In a l) /\ (b <= a -> l = []) /\
  (forall y, a <= y < b -> exists x, In x l /\ x <= y < x + s).
Proof.
  intros Hs H. destruct (arange_spec a b s l Hs H) as [H1 H2].
  assert (E : l = map (fun i => a + INR i * s) (seq 0 (length l))).
  { unfold arange in H. destruct (Req_EM_T s 0); [lra|]. injection H as <-. rewrite map_length, seq_length. reflexivity. }
  assert (Hx : forall x, In x l -> a <= x < b).
  { intros x I. apply In_nth_error in I. destruct I as (i & I). destruct (H1 i x I) as [-> B]. split; [|assumption].
    assert (0 <= INR i) by apply pos_INR. assert (0 <= INR i * s) by (apply Rmult_le_pos; lra). lra. }
  split; [|split; [exact Hx|split; [|split]]].
  - rewrite E. apply ssorted_map_seq. intros i j A B. assert (INR i < INR j) by (apply lt_INR; lia). assert (INR i * s < INR j * s) by (apply Rmult_lt_compat_r; lra). lra.
  - intros L. destruct l as [|x l]; [cbn in H2; lra|]. destruct (H1 0%nat x eq_refl) as [-> _]. left. cbn. lra.
  - intros L. destruct l as [|x l]; [reflexivity|]. specialize (Hx x (or_introl eq_refl)). lra.
  - intros y Hy. assert (G : forall n, (n <= length l)%nat -> a + INR n * s <= y \/ exists i, (i < n)%nat /\ a + INR i * s <= y < a + INR i * s + s).
    { induction n as [|n IH]; intros Hn; [left; cbn; lra|]. destruct (IH ltac:(lia)) as [G|(i & Hi & G)]; [|right; exists i; split; [lia|assumption]].
      rewrite S_INR. destruct (Rle_dec (a + (INR n + 1) * s) y) as [K|K]; [left; assumption|]. right. exists n. split; [lia|]. lra. }
    destruct (G (length l) (le_n _)) as [K|(i & Hi & K)]; [lra|]. exists (a + INR i * s). split; [|assumption].
    rewrite E. apply in_map_iff. exists i. split; [reflexivity|]. apply in_seq. lia.
Qed.
Lemma arange_ok a b s : 0 < s -> exists l, arange a b s = Ok l.
Proof. intros H. unfold arange. destruct (Req_EM_T s 0); [lra|]. eexists. reflexivity. Qed.

(** [np.linspace]. *)
Lemma linspace_ok a b n e : (0 <= n)%Z -> exists l, np_linspace a b n e = Ok l.
Proof. intros H. unfold np_linspace. replace (Z.ltb n 0) with false by (symmetry; apply Z.ltb_ge; lia). eexists. reflexivity. Qed.
Lemma linspace_facts a b n e l : a < b -> np_linspace a b n e = Ok l ->
  StronglySorted Rlt l /\ (forall x, In x l -> a <= x <= b) /\ (e = false -> forall x, In x l -> x < b) /\
  (e = true -> (2 <= n)%Z -> In b l) /\ ((0 < n)%Z -> In a l) /\ (n = 0%Z -> l = []).
Proof.
  intros Hab H. unfold np_linspace in H. destruct (Z.ltb n 0) eqn:En; [discriminate|]. apply Z.ltb_ge in En.
  set (m := Z.to_nat n) in *. assert (Hl : l = map (fun i => if Nat.eqb i 0 then a else a + (b - a) * INR i / INR (if e then (m - 1)%nat else m)) (seq 0 m)) by congruence.
  clear H. set (D := if e then (m - 1)%nat else m) in *. set (f := fun i => _) in Hl.
  assert (Hf : forall i, (i < m)%nat -> (0 < D)%nat -> f i = a + (b - a) * (INR i / INR D)).
  { intros i Hi HD. unfold f. destruct i as [|i]; cbn [Nat.eqb]; [cbn [INR]; unfold Rdiv; lra|]. unfold Rdiv. lra. }
  assert (Hd : forall i, (0 < D)%nat -> (i <= D)%nat -> 0 <= INR i / INR D <= 1).
  { intros i HD Hi. assert (0 < INR D) by (apply lt_0_INR; lia). assert (INR i <= INR D) by (apply le_INR; lia). assert (0 <= INR i) by apply pos_INR.
    split; [apply Rmult_le_pos; [lra|left; apply Rinv_0_lt_compat; lra]|].
    apply (Rmult_le_reg_r (INR D)); [lra|]. unfold Rdiv. rewrite Rmult_assoc, Rinv_l; lra. }
  assert (Case : (0 < D)%nat \/ (m <= 1)%nat) by (unfold D; destruct e; lia).
  assert (Hin : forall x, In x l -> exists i, (i < m)%nat /\ x = f i).
  { intros x I. rewrite Hl in I. apply in_map_iff in I. destruct I as (i & <- & I). apply in_seq in I. exists i. split; [lia|reflexivity]. }
  assert (HiD : forall i, (i < m)%nat -> (i <= D)%nat) by (intros i Hi; unfold D; destruct e; lia).
  split; [|split; [|split; [|split; [|split]]]].
  - rewrite Hl. apply ssorted_map_seq. intros i j A B. destruct Case as [HD|HD]; [|lia]. rewrite !Hf by lia.
    assert (0 < INR D) by (apply lt_0_INR; lia). assert (INR i < INR j) by (apply lt_INR; lia).
    assert (INR i / INR D < INR j / INR D) by (apply Rmult_lt_compat_r; [apply Rinv_0_lt_compat|]; lra).
    assert ((b - a) * (INR i / INR D) < (b - a) * (INR j / INR D)) by (apply Rmult_lt_compat_l; lra). lra.
  - intros x I. destruct (Hin x I) as (i & Hi & ->). destruct Case as [HD|HD].
    + rewrite Hf by lia. assert (B := Hd i HD (HiD i Hi)).
      assert (0 <= (b - a) * (INR i / INR D)) by (apply Rmult_le_pos; lra). assert ((b - a) * (INR i / INR D) <= (b - a) * 1) by (apply Rmult_le_compat_l; lra). lra.
    + assert (i = 0%nat) by lia. subst i. unfold f. cbn [Nat.eqb]. lra.
  - intros He x I. destruct (Hin x I) as (i & Hi & ->). subst e. unfold D in *. rewrite Hf by lia. assert (0 < INR m) by (apply lt_0_INR; lia). assert (INR i < INR m) by (apply lt_INR; lia).
    assert (INR i / INR m < 1). { apply (Rmult_lt_reg_r (INR m)); [lra|]. unfold Rdiv. rewrite Rmult_assoc, Rinv_l; lra. }
    assert ((b - a) * (INR i / INR m) < (b - a) * 1) by (apply Rmult_lt_compat_l; lra). lra.
  - intros He Hn. subst e. rewrite Hl. apply in_map_iff. exists (m - 1)%nat. assert (0 < INR (m - 1)) by (apply lt_0_INR; unfold m; lia). split; [|apply in_seq; unfold m; lia].
    rewrite Hf by (unfold D, m; lia). unfold D. unfold Rdiv. rewrite Rinv_r by lra. lra.
  - intros Hn. rewrite Hl. apply in_map_iff. exists 0%nat. split; [reflexivity|apply in_seq; unfold m; lia].
  - intros ->. rewrite Hl. reflexivity.
Qed.

(** Python's [int]. *)
Lemma py_int_spec x : 0 <= x -> IZR (py_int x) <= x < IZR (py_int x) + 1.
Proof. intros H. unfold py_int. destruct (Rle_dec 0 x); [|contradiction]. destruct (archimed x). rewrite minus_IZR. lra. Qed.
Lemma py_int_ge n x : 0 <= x -> IZR n <= x -> (n <= py_int x)%Z.
Proof.
  intros H0 H. destruct (py_int_spec x H0) as [_ B]. assert (IZR n < IZR (py_int x + 1)) by (rewrite plus_IZR; lra). apply lt_IZR in H1. lia.
Qed.
Lemma py_int_lt1 x : 0 <= x < 1 -> py_int x = 0%Z.
Proof.
  intros H. destruct (py_int_spec x ltac:(lra)) as [A B]. assert (C := py_int_ge 0 x ltac:(lra) ltac:(lra)).
  assert (IZR (py_int x) < 1) by lra. apply (lt_IZR _ 1) in H0. lia.
Qed.
Lemma py_int_neg x : x <= -1 -> (py_int x < 0)%Z.
Proof.
  intros H. unfold py_int. destruct (Rle_dec 0 x); [lra|]. destruct (archimed (- x)) as [A _].
  assert (IZR 1 < IZR (up (- x))) by lra. apply lt_IZR in H0. lia.
Qed.

(** * [make_mesh] *)
Lemma mk_div x y c : 0 < y -> c * y <= x -> c <= x / y.
Proof. intros Hy H. apply (Rmult_le_reg_r y); [assumption|]. unfold Rdiv. rewrite Rmult_assoc, Rinv_l, Rmult_1_r by lra. assumption. Qed.

(** What the junction needs for a mesh: wider than the 200 nm front part, spacings positive
    and different, a junction within it, and enough room for each part. *)
Record mesh_room (T ms Ms d : R) : Prop := {
  mr_T : 200 / 10 ^ 7 - / 10 ^ 10 < T;
  mr_ms : 0 < ms; mr_Ms : 0 < Ms; mr_ne : Ms <> ms;
  mr_d : 0 <= d <= T;
  mr_case : (d < T / 2 /\ 200 / 10 ^ 7 - / 10 ^ 10 < d + T / 10 /\ 2 * Ms <= T - (d + T / 10)) \/
            (T / 2 <= d /\ 200 / 10 ^ 7 - / 10 ^ 10 < T / 5 /\
             ((d + T / 10 < T /\ 2 * Ms <= T - (d + T / 10)) \/ (T <= d + T / 10 /\ 2 * ms <= T - (d - T / 10)))) }.

Theorem C68_partial T omin omax d ds : mesh_room T (min_spacing omin T) (max_spacing omax T) d ->
  exists m, make_mesh T omin omax (d :: ds) = Ok m /\ mesh_of 0 T m.
Proof.
  intros [HT Hms HMs Hne Hd Hc]. unfold make_mesh. set (ms := min_spacing omin T) in *. set (Ms := max_spacing omax T) in *. clearbody ms Ms.
  assert (Hi10 : / 10 ^ 10 < 200 / 10 ^ 7) by lra.
  destruct (Req_EM_T Ms ms); [contradiction|]. cbv zeta.
  assert (Ef : end_front T = 200 / 10 ^ 7 - / 10 ^ 10) by (unfold end_front; apply Rmin_left; lra). rewrite Ef.
  set (ef := 200 / 10 ^ 7 - / 10 ^ 10) in *. assert (Hef : 0 < ef) by (unfold ef; lra). clearbody ef.
  assert (Hfs : 0 < Rmin ms (/ 2 / 10 ^ 7)) by (apply Rmin_glb_lt; lra).
  destruct (arange_ok 0 ef _ Hfs) as (fr & Efr). rewrite Efr. cbn [bindR].
  destruct (arange_facts _ _ _ _ Hfs Efr) as (F1 & F2 & F3 & _). specialize (F3 Hef).
  destruct (Req_EM_T ef T); [lra|].
  destruct Hc as [(C1 & C2 & C3)|(C1 & C2 & C3)].
  - unfold end_dense. destruct (Rlt_dec (d + T / 10) T) as [L|L]; [|lra]. set (ed := d + T / 10) in *.
    destruct (Req_EM_T ed T); [lra|]. destruct (Rlt_dec d (T / 2)); [|contradiction]. destruct (Rlt_dec ef ed); [|lra].
    destruct (linspace_ok ef ed (py_int ((ed - ef) / ms)) false) as (dn & Edn); [apply py_int_ge; apply mk_div; lra|].
    rewrite Edn. cbn [bindR]. destruct (linspace_facts _ _ _ _ _ C2 Edn) as (D1 & D2 & D3 & _). specialize (D3 eq_refl).
    assert (N2 : (2 <= py_int ((T - ed) / Ms))%Z) by (apply py_int_ge; apply mk_div; lra).
    destruct (linspace_ok ed T (py_int ((T - ed) / Ms)) true) as (rs & Ers); [lia|]. rewrite Ers. cbn [bindR].
    destruct (linspace_facts _ _ _ _ _ L Ers) as (R1 & R2 & _ & R4 & _). specialize (R4 eq_refl N2).
    eexists. split; [reflexivity|]. apply ssorted_bounds.
    + apply ssorted_app; [apply ssorted_app|assumption|]; try assumption.
      * intros a b Ia Ib. assert (A := F2 a Ia). assert (B := D2 b Ib). lra.
      * intros a b Ia Ib. assert (B := R2 b Ib). apply in_app_or in Ia. destruct Ia as [Ia|Ia]; [assert (A := F2 a Ia); lra|assert (A := D3 a Ia); lra].
    + apply in_or_app. left. apply in_or_app. left. exact F3.
    + apply in_or_app. right. exact R4.
    + intros x I. apply in_app_or in I. destruct I as [I|I]; [apply in_app_or in I; destruct I as [I|I]|].
      * assert (A := F2 x I). lra.
      * assert (A := D2 x I). lra.
      * assert (A := R2 x I). lra.
  - destruct (Rlt_dec d (T / 2)); [lra|].
    destruct (linspace_ok ef (T / 5) (py_int ((T / 5 - ef) / ms)) false) as (df & Edf); [apply py_int_ge; apply mk_div; lra|].
    rewrite Edf. cbn [bindR]. destruct (linspace_facts _ _ _ _ _ C2 Edf) as (_ & D2 & _).
    destruct (linspace_ok (T / 5) (d - T / 10) (py_int ((d - 3 * (T / 10)) / Ms)) false) as (bk & Ebk); [apply py_int_ge; apply mk_div; lra|].
    rewrite Ebk. cbn [bindR]. destruct (linspace_facts (T / 5) (d - T / 10) _ _ _ ltac:(lra) Ebk) as (_ & B2 & _).
    unfold end_dense. destruct (Rlt_dec (d + T / 10) T) as [L|L].
    + destruct C3 as [[_ C3]|[C3 _]]; [|lra]. set (ed := d + T / 10) in *. assert (ed <> T) by lra. destruct (Req_EM_T ed T); [contradiction|].
      destruct (linspace_ok (d - T / 10) ed (py_int ((ed - (d - T / 10)) / ms)) false) as (dn & Edn); [apply py_int_ge; apply mk_div; unfold ed; lra|].
      rewrite Edn. cbn [bindR]. destruct (linspace_facts (d - T / 10) ed _ _ _ ltac:(unfold ed; lra) Edn) as (_ & N2 & _).
      assert (M2 : (2 <= py_int ((T - ed) / Ms))%Z) by (apply py_int_ge; apply mk_div; lra).
      destruct (linspace_ok ed T (py_int ((T - ed) / Ms)) true) as (rs & Ers); [lia|]. rewrite Ers. cbn [bindR].
      destruct (linspace_facts _ _ _ _ _ L Ers) as (R1 & R2 & _ & R4 & _). specialize (R4 eq_refl M2).
      eexists. split; [reflexivity|]. apply ssorted_bounds; [apply unique_sorted| | |].
      * apply unique_in, in_or_app. left. exact F3.
      * apply unique_in. repeat (apply in_or_app; right). exact R4.
      * intros x I. apply (proj1 (unique_in _ _)) in I. repeat (apply in_app_or in I; destruct I as [I|I]).
        -- assert (A := F2 x I). lra.
        -- assert (A := D2 x I). lra.
        -- assert (A := B2 x I). lra.
        -- assert (A := N2 x I). unfold ed in *. lra.
        -- assert (A := R2 x I). unfold ed in *. lra.
    + destruct C3 as [[C3 _]|[_ C3]]; [lra|]. destruct (Req_EM_T T T); [|congruence].
      assert (M2 : (2 <= py_int ((T - (d - T / 10)) / ms))%Z) by (apply py_int_ge; apply mk_div; lra).
      destruct (linspace_ok (d - T / 10) T (py_int ((T - (d - T / 10)) / ms)) true) as (dn & Edn); [lia|].
      rewrite Edn. cbn [bindR]. destruct (linspace_facts (d - T / 10) T _ _ _ ltac:(lra) Edn) as (_ & N2 & _ & N4 & _). specialize (N4 eq_refl M2).
      eexists. split; [reflexivity|]. apply ssorted_bounds; [apply unique_sorted| | |].
      * apply unique_in, in_or_app. left. exact F3.
      * apply unique_in. repeat (apply in_or_app; right). exact N4.
      * intros x I. apply (proj1 (unique_in _ _)) in I. repeat (apply in_app_or in I; destruct I as [I|I]).
        -- assert (A := F2 x I). lra.
        -- assert (A := D2 x I). lra.
        -- assert (A := B2 x I). lra.
        -- assert (A := N2 x I). lra.
Qed.

(** With the default spacings: every junction of 2 um or more gets such a mesh, unless its
    depth lies between 89.6 % and 90 % of the thickness. *)
Theorem C68_defaults T d ds : 2 / 10 ^ 4 <= T -> 0 <= d <= T -> d <= 896 / 1000 * T \/ 9 / 10 * T <= d ->
  exists m, make_mesh T None None (d :: ds) = Ok m /\ mesh_of 0 T m.
Proof.
  intros HT Hd Hc. apply C68_partial. constructor; cbn [min_spacing max_spacing]; try lra.
Qed.
Example C68_example : exists m, make_mesh (3 / 10 ^ 4) None None [5 / 10 ^ 5] = Ok m /\ mesh_of 0 (3 / 10 ^ 4) m.
Proof. apply C68_defaults; lra. Qed.
Example C68_example2 : exists m, make_mesh (3 / 10 ^ 4) (Some (/ 10 ^ 9)) (Some (/ 10 ^ 7)) [28 / 10 ^ 5] = Ok m /\ mesh_of 0 (3 / 10 ^ 4) m.
Proof. apply C68_partial. constructor; cbn [min_spacing max_spacing]; lra. Qed.

(** Where it fails.  A junction no thicker than the dense front part gets no mesh at all. *)
Theorem C68_thin T omin omax ds : 0 < T <= 200 / 10 ^ 7 - / 10 ^ 10 -> 0 < min_spacing omin T -> max_spacing omax T <> min_spacing omin T ->
  make_mesh T omin omax ds = Err UnboundLocalError.
Proof.
  intros HT Hms Hne. unfold make_mesh. destruct (Req_EM_T _ _); [contradiction|]. cbv zeta.
  assert (Ef : end_front T = T) by (unfold end_front; apply Rmin_right; lra). rewrite Ef.
  destruct (arange_ok 0 T (Rmin (min_spacing omin T) (/ 2 / 10 ^ 7))) as (fr & Efr); [apply Rmin_glb_lt; lra|]. rewrite Efr. cbn [bindR].
  destruct (Req_EM_T T T); [reflexivity|congruence].
Qed.
Example C68_thin_example : make_mesh (/ 10 ^ 5) None None [5 / 10 ^ 6] = Err UnboundLocalError.
Proof. apply C68_thin; cbn [min_spacing max_spacing]; lra. Qed.
(** Equal spacings leave the back surface out. *)
Theorem C68_equal_spacing T omin omax ds m : 0 < max_spacing omax T -> max_spacing omax T = min_spacing omin T ->
  make_mesh T omin omax ds = Ok m -> ~ In T m.
Proof.
  intros HM He H I. unfold make_mesh in H. destruct (Req_EM_T _ _); [|contradiction]. destruct (arange_facts _ _ _ _ HM H) as (_ & F & _).
  specialize (F T I). lra.
Qed.
Example C68_equal_example : exists m, make_mesh (/ 10 ^ 4) (Some (/ 10 ^ 8)) (Some (/ 10 ^ 8)) [5 / 10 ^ 5] = Ok m /\ ~ In (/ 10 ^ 4) m.
Proof.
  destruct (arange_ok 0 (/ 10 ^ 4) (/ 10 ^ 8 * 100) ltac:(lra)) as (m & E). exists m.
  assert (M : make_mesh (/ 10 ^ 4) (Some (/ 10 ^ 8)) (Some (/ 10 ^ 8)) [5 / 10 ^ 5] = Ok m).
  { unfold make_mesh. cbn [min_spacing max_spacing]. destruct (Req_EM_T _ _); [exact E|congruence]. }
  split; [exact M|]. apply (C68_equal_spacing _ _ _ _ _) in M; [exact M| |reflexivity]. cbn [max_spacing]. lra.
Qed.
(** A junction in the rear half of a cell with a thin front part: a negative number of points. *)
Theorem C68_deep_thin T omin omax d ds : 200 / 10 ^ 7 - / 10 ^ 10 < T -> 0 < min_spacing omin T -> max_spacing omax T <> min_spacing omin T ->
  T / 2 <= d -> T / 5 + min_spacing omin T <= 200 / 10 ^ 7 - / 10 ^ 10 ->
  make_mesh T omin omax (d :: ds) = Err ValueError.
Proof.
  intros HT Hms Hne Hd Hs. unfold make_mesh. destruct (Req_EM_T _ _); [contradiction|]. cbv zeta.
  assert (Ef : end_front T = 200 / 10 ^ 7 - / 10 ^ 10) by (unfold end_front; apply Rmin_left; lra). rewrite Ef.
  set (ms := min_spacing omin T) in *. clearbody ms. set (ef := 200 / 10 ^ 7 - / 10 ^ 10) in *.
  destruct (arange_ok 0 ef (Rmin ms (/ 2 / 10 ^ 7))) as (fr & Efr); [apply Rmin_glb_lt; lra|]. rewrite Efr. cbn [bindR].
  destruct (Req_EM_T ef T); [lra|]. destruct (Rlt_dec d (T / 2)); [lra|].
  assert (N : (py_int ((T / 5 - ef) / ms) < 0)%Z).
  { apply py_int_neg. apply (Rmult_le_reg_r ms); [assumption|]. unfold Rdiv. rewrite (Rmult_assoc (T * / 5 - ef)), Rinv_l by lra. lra. }
  unfold np_linspace at 1. replace (Z.ltb (py_int ((T / 5 - ef) / ms)) 0) with true by (symmetry; apply Z.ltb_lt; exact N). reflexivity.
Qed.
Example C68_deep_example : make_mesh (9 / 10 ^ 5) None None [5 / 10 ^ 5] = Err ValueError.
Proof. apply C68_deep_thin; cbn [min_spacing max_spacing]; lra. Qed.
(** No junction found: no mesh. *)
Theorem C68_no_junction T omin omax : 200 / 10 ^ 7 - / 10 ^ 10 < T -> 0 < min_spacing omin T -> max_spacing omax T <> min_spacing omin T ->
  make_mesh T omin omax [] = Err IndexError.
Proof.
  intros HT Hms Hne. unfold make_mesh. destruct (Req_EM_T _ _); [contradiction|]. cbv zeta.
  assert (Ef : end_front T = 200 / 10 ^ 7 - / 10 ^ 10) by (unfold end_front; apply Rmin_left; lra). rewrite Ef.
  destruct (arange_ok 0 (200 / 10 ^ 7 - / 10 ^ 10) (Rmin (min_spacing omin T) (/ 2 / 10 ^ 7))) as (fr & Efr); [apply Rmin_glb_lt; lra|]. rewrite Efr. cbn [bindR].
  destruct (Req_EM_T _ T); [lra|reflexivity].
Qed.
Example C68_no_junction_example : make_mesh (9 / 10 ^ 5) None None [] = Err IndexError.
Proof. apply C68_no_junction; cbn [min_spacing max_spacing]; lra. Qed.
(** A 10 um cell with the default spacings and its junction at 89.9 %: the last tenth has no
    point, and the mesh ends before the back surface. *)
Theorem C68_refuted_back : exists m, make_mesh (/ 10 ^ 3) None None [899 / 10 ^ 6] = Ok m /\ ~ In (/ 10 ^ 3) m.
Proof.
  set (T := / 10 ^ 3). set (d := 899 / 10 ^ 6). unfold make_mesh. cbn [min_spacing max_spacing].
  assert (HT : T = / 10 ^ 3) by reflexivity. assert (Hd : d = 899 / 10 ^ 6) by reflexivity. clearbody T d.
  destruct (Req_EM_T _ _) as [E|_]; [lra|]. cbv zeta.
  assert (Ef : end_front T = 200 / 10 ^ 7 - / 10 ^ 10) by (unfold end_front; apply Rmin_left; lra). rewrite Ef.
  set (ef := 200 / 10 ^ 7 - / 10 ^ 10) in *. assert (Hef : ef = 200 / 10 ^ 7 - / 10 ^ 10) by reflexivity. clearbody ef.
  assert (Hfs : 0 < Rmin (T / 10 ^ 4) (/ 2 / 10 ^ 7)) by (apply Rmin_glb_lt; lra).
  destruct (arange_ok 0 ef _ Hfs) as (fr & Efr). rewrite Efr. cbn [bindR]. destruct (arange_facts _ _ _ _ Hfs Efr) as (F1 & F2 & F3 & _).
  destruct (Req_EM_T ef T); [lra|]. destruct (Rlt_dec d (T / 2)); [lra|].
  destruct (linspace_ok ef (T / 5) (py_int ((T / 5 - ef) / (T / 10 ^ 4))) false) as (df & Edf); [apply py_int_ge; apply mk_div; lra|].
  rewrite Edf. cbn [bindR]. destruct (linspace_facts ef (T / 5) _ _ _ ltac:(lra) Edf) as (_ & D2 & _).
  destruct (linspace_ok (T / 5) (d - T / 10) (py_int ((d - 3 * (T / 10)) / (T / 500))) false) as (bk & Ebk); [apply py_int_ge; apply mk_div; lra|].
  rewrite Ebk. cbn [bindR]. destruct (linspace_facts (T / 5) (d - T / 10) _ _ _ ltac:(lra) Ebk) as (_ & B2 & _).
  unfold end_dense. destruct (Rlt_dec (d + T / 10) T) as [L|L]; [|lra]. destruct (Req_EM_T (d + T / 10) T); [lra|].
  destruct (linspace_ok (d - T / 10) (d + T / 10) (py_int ((d + T / 10 - (d - T / 10)) / (T / 10 ^ 4))) false) as (dn & Edn); [apply py_int_ge; apply mk_div; lra|].
  rewrite Edn. cbn [bindR]. destruct (linspace_facts (d - T / 10) (d + T / 10) _ _ _ ltac:(lra) Edn) as (_ & N2 & _).
  rewrite py_int_lt1.
  2:{ split; [apply mk_div; lra|]. apply (Rmult_lt_reg_r (T / 500)); [lra|]. unfold Rdiv at 1. rewrite Rmult_assoc, Rinv_l by lra. lra. }
  destruct (linspace_ok (d + T / 10) T 0 true) as (rs & Ers); [lia|]. rewrite Ers. cbn [bindR].
  destruct (linspace_facts _ _ _ _ _ L Ers) as (_ & _ & _ & _ & _ & R6). rewrite (R6 eq_refl).
  eexists. split; [reflexivity|]. intros I. apply (proj1 (unique_in _ _)) in I. repeat (apply in_app_or in I; destruct I as [I|I]).
  - assert (A := F2 _ I). lra.
  - assert (A := D2 _ I). lra.
  - assert (A := B2 _ I). lra.
  - assert (A := N2 _ I). lra.
  - destruct I.
Qed.
(** A 210 nm cell with its junction at 50 nm: the mesh runs to 200 nm and starts again at 71 nm. *)
Theorem C68_refuted_order : exists m, make_mesh (21 / 10 ^ 6) None None [5 / 10 ^ 6] = Ok m /\ ~ increasing m.
Proof.
  set (T := 21 / 10 ^ 6). set (d := 5 / 10 ^ 6). unfold make_mesh. cbn [min_spacing max_spacing].
  assert (HT : T = 21 / 10 ^ 6) by reflexivity. assert (Hd : d = 5 / 10 ^ 6) by reflexivity. clearbody T d.
  destruct (Req_EM_T _ _) as [E|_]; [lra|]. cbv zeta.
  assert (Ef : end_front T = 200 / 10 ^ 7 - / 10 ^ 10) by (unfold end_front; apply Rmin_left; lra). rewrite Ef.
  set (ef := 200 / 10 ^ 7 - / 10 ^ 10) in *. assert (Hef : ef = 200 / 10 ^ 7 - / 10 ^ 10) by reflexivity. clearbody ef.
  assert (Efs : Rmin (T / 10 ^ 4) (/ 2 / 10 ^ 7) = T / 10 ^ 4) by (apply Rmin_left; lra). rewrite Efs.
  destruct (arange_ok 0 ef (T / 10 ^ 4) ltac:(lra)) as (fr & Efr). rewrite Efr. cbn [bindR]. destruct (arange_facts 0 ef (T / 10 ^ 4) _ ltac:(lra) Efr) as (F1 & F2 & F3 & _ & F5).
  destruct (Req_EM_T ef T); [lra|]. destruct (Rlt_dec d (T / 2)); [|lra].
  unfold end_dense. destruct (Rlt_dec (d + T / 10) T) as [L|L]; [|lra]. destruct (Req_EM_T (d + T / 10) T); [lra|].
  destruct (Rlt_dec ef (d + T / 10)); [lra|]. cbn [bindR].
  assert (M2 : (2 <= py_int ((T - (d + T / 10)) / (T / 500)))%Z) by (apply py_int_ge; apply mk_div; lra).
  destruct (linspace_ok (d + T / 10) T (py_int ((T - (d + T / 10)) / (T / 500))) true) as (rs & Ers); [lia|]. rewrite Ers. cbn [bindR].
  destruct (linspace_facts _ _ _ _ _ L Ers) as (_ & _ & _ & _ & R5 & _). specialize (R5 ltac:(lia)).
  eexists. split; [reflexivity|]. intros Inc. apply increasing_ssorted in Inc.
  destruct (F5 (ef / 2)) as (x & Ix & Bx); [lra|].
  assert (G : forall l m a b, StronglySorted Rlt (l ++ m) -> In a l -> In b m -> a < b).
  { induction l as [|y l IH]; intros m a b S Ia Ib; [destruct Ia|]. cbn in S. inversion S as [|? ? S1 S2]; subst. destruct Ia as [<-|Ia]; [|eauto].
    rewrite Forall_forall in S2. apply S2, in_or_app. right. assumption. }
  assert (K := G _ _ _ _ Inc Ix R5). lra.
Qed.

(** * [update_mesh] *)
Lemma np_gradient_length f x g : np_gradient f x = Ok g -> length g = length f.
Proof. unfold np_gradient. destruct (Nat.ltb _ _); [discriminate|]. intros H. apply (f_equal (fun r => match r with Ok y => length y | Err _ => 0%nat end)) in H. rewrite map_length, seq_length in H. auto. Qed.
Lemma runs_from_bounds n first prev l : (first <= prev < n)%nat -> Forall (fun i => (i < n)%nat) l ->
  (forall i, In i l -> (prev < i)%nat) -> StronglySorted lt l ->
  Forall (fun p => (fst p <= snd p < n)%nat) (runs_from first prev l).
Proof.
  revert first prev. induction l as [|i l IH]; intros first prev H F G Sl; cbn [runs_from]; [repeat constructor; cbn; lia|].
  inversion F; subst. inversion Sl as [|? ? S1 S2]; subst. rewrite Forall_forall in S2. assert (prev < i)%nat by (apply G; left; reflexivity).
  destruct (Nat.eqb i (S prev)) eqn:E.
  - apply Nat.eqb_eq in E. apply IH; [lia|assumption|exact S2|assumption].
  - constructor; [cbn; lia|]. apply IH; [lia|assumption|exact S2|assumption].
Qed.
Lemma filter_seq_sorted (f : nat -> bool) s n : StronglySorted lt (filter f (seq s n)).
Proof.
  revert s. induction n as [|n IH]; intros s; [constructor|]. cbn [seq filter]. destruct (f s); [|apply IH]. constructor; [apply IH|].
  apply Forall_forall. intros i I. apply filter_In in I. destruct I as [I _]. apply in_seq in I. lia.
Qed.

Lemma refine_keeps ms mesh a b x0 xn : 0 < ms -> StronglySorted Rlt mesh -> In x0 mesh -> In xn mesh -> (forall x, In x mesh -> x0 <= x <= xn) ->
  x0 <= a -> b <= xn -> (a = b \/ a + / 10 ^ 12 < b) ->
  exists m, refine ms mesh (a, b) = Ok m /\ StronglySorted Rlt m /\ In x0 m /\ In xn m /\ (forall x, In x m -> x0 <= x <= xn).
Proof.
  intros Hms S I0 In_ B Ha Hb Hab. unfold refine. destruct (arange_ok a (b - / 10 ^ 12) ms Hms) as (dn & Edn). rewrite Edn. cbn [bindR].
  destruct (arange_facts _ _ _ _ Hms Edn) as (_ & D2 & D3 & _). assert (0 < / 10 ^ 12) by lra.
  eexists. split; [reflexivity|]. split; [apply unique_sorted|]. split; [|split].
  - apply unique_in. destruct (Rlt_dec x0 a) as [L|L].
    + apply in_or_app. left. apply filter_In. split; [assumption|]. apply lt_b_iff. assumption.
    + assert (x0 = a) as -> by lra. destruct Hab as [->|Hab].
      * apply in_or_app. right. apply in_or_app. right. apply filter_In. split; [assumption|]. apply le_b_iff. lra.
      * apply in_or_app. right. apply in_or_app. left. apply D3. lra.
  - apply unique_in. apply in_or_app. right. apply in_or_app. right. apply filter_In. split; [assumption|]. apply le_b_iff. assumption.
  - intros x I. apply (proj1 (unique_in _ _)) in I. apply in_app_or in I. destruct I as [I|I]; [apply filter_In in I; apply B, I|].
    apply in_app_or in I. destruct I as [I|I]; [specialize (D2 x I); lra|apply filter_In in I; apply B, I].
Qed.

(** The refined mesh is strictly increasing again and has the same ends, for every doping
    that is not constant and every mesh whose points are more than 1e-12 cm apart. *)
Theorem C68_update T omin mesh rho a b : mesh_of a b mesh -> length rho = length mesh -> 0 < min_spacing omin T ->
  (forall i j, (i < j < length mesh)%nat -> nth i mesh 0 + / 10 ^ 12 < nth j mesh 0) ->
  (exists i j, (i < length rho)%nat /\ (j < length rho)%nat /\ nth i rho 0 <> nth j rho 0) ->
  exists m, update_mesh T omin mesh rho = Ok m /\ mesh_of a b m.
Proof.
  intros (Inc & Ne & E0 & E1) Lr Hms Gap (i0 & j0 & Hi0 & Hj0 & Hne). unfold update_mesh. set (ms := min_spacing omin T) in *. clearbody ms.
  assert (L2 : (2 <= length mesh)%nat).
  { destruct (Nat.le_gt_cases 2 (length mesh)); [assumption|]. exfalso. apply Hne. replace i0 with j0 by lia. reflexivity. }
  destruct (np_gradient rho mesh) as [g|e] eqn:Eg; [|unfold np_gradient in Eg; rewrite Lr in Eg; replace (Nat.ltb (length mesh) 2) with false in Eg by (symmetry; apply Nat.ltb_ge; lia); discriminate].
  cbn [bindR]. assert (Lg := np_gradient_length _ _ _ Eg).
  assert (Gpos : exists k, (k < length g)%nat /\ nth k g 0 <> 0).
  { apply Classical_Prop.NNPP. intros N. assert (Z : forall k, (k < length g)%nat -> nth k g 0 = 0).
    { intros k Hk. destruct (Req_dec (nth k g 0) 0) as [E|E]; [assumption|]. exfalso. apply N. exists k. auto. }
    assert (Hg : forall k, (k < length g)%nat -> nth k g 0 = 
       (if Nat.eqb k 0 then (at_ rho 1 - at_ rho 0) / (at_ mesh 1 - at_ mesh 0)
        else if Nat.eqb k (length rho - 1) then (at_ rho (length rho - 1) - at_ rho (length rho - 2)) / (at_ mesh (length rho - 1) - at_ mesh (length rho - 2))
        else let hs := at_ mesh k - at_ mesh (k - 1) in let hd := at_ mesh (k + 1) - at_ mesh k in
         (hs * hs * at_ rho (k + 1) + (hd * hd - hs * hs) * at_ rho k - hd * hd * at_ rho (k - 1)) / (hs * hd * (hd + hs)))).
    { intros k Hk. unfold np_gradient in Eg. destruct (Nat.ltb _ _); [discriminate|].
      match type of Eg with Ok (map ?f0 _) = _ => set (f := f0) in Eg end.
      assert (El : g = map f (seq 0 (length rho))) by congruence. rewrite El. rewrite (nth_indep _ 0 (f 0%nat)) by (rewrite map_length, seq_length; lia).
      rewrite map_nth, seq_nth by lia. reflexivity. }
    (* every consecutive difference vanishes *)
    assert (C : forall k, (k < length rho)%nat -> at_ rho k = at_ rho 0).
    { assert (Cs : forall k, (k < length rho)%nat -> at_ rho k = at_ rho 0 /\ (k = 0%nat \/ at_ rho (k - 1) = at_ rho 0)).
      { induction k as [|k IH]; intros Hk; [auto|]. destruct (IH ltac:(lia)) as [A Q]. split; [|right; replace (S k - 1)%nat with k by lia; assumption].
        specialize (Z k ltac:(lia)). rewrite Hg in Z by lia. destruct (Nat.eqb k 0) eqn:Ek.
        - apply Nat.eqb_eq in Ek. subst k. assert (D : at_ mesh 0 < at_ mesh 1) by (apply Inc; lia). 
          unfold Rdiv in Z. apply Rmult_integral in Z. destruct Z as [Z|Z]; [lra|]. exfalso. revert Z. apply Rinv_neq_0_compat. lra.
        - apply Nat.eqb_neq in Ek. replace (Nat.eqb k (length rho - 1)) with false in Z by (symmetry; apply Nat.eqb_neq; lia).
          destruct Q as [Q|Q]; [lia|]. cbv zeta in Z. rewrite A, Q in Z. replace (k + 1)%nat with (S k) in Z by lia.
          assert (D1 : at_ mesh (k - 1) < at_ mesh k) by (apply Inc; lia). assert (D2 : at_ mesh k < at_ mesh (S k)) by (apply Inc; lia).
          set (hs := at_ mesh k - at_ mesh (k - 1)) in *. set (hd := at_ mesh (S k) - at_ mesh k) in *.
          assert (0 < hs) by (unfold hs; lra). assert (0 < hd) by (unfold hd; lra).
          assert (0 < hs * hd * (hd + hs)) by (apply Rmult_lt_0_compat; [apply Rmult_lt_0_compat|]; lra).
          unfold Rdiv in Z. apply Rmult_integral in Z. destruct Z as [Z|Z]; [|exfalso; revert Z; apply Rinv_neq_0_compat; lra].
          assert (Z' : hs * hs * (at_ rho (S k) - at_ rho 0) = 0) by lra. apply Rmult_integral in Z'. destruct Z' as [Z'|Z']; [|lra].
          apply Rmult_integral in Z'. lra. }
      intros k Hk. apply Cs, Hk. }
    apply Hne. rewrite (C i0), (C j0) by assumption. reflexivity. }
  set (M := fold_right Rmax 0 (map Rabs g)).
  assert (Mup : forall l x, In x l -> x <= fold_right Rmax 0 l).
  { induction l as [|y l IH]; intros x I; [destruct I|]. cbn. destruct I as [->|I]; [apply Rmax_l|]. eapply Rle_trans; [apply IH, I|apply Rmax_r]. }
  assert (Min : forall l, fold_right Rmax 0 l = 0 \/ In (fold_right Rmax 0 l) l).
  { induction l as [|y l IH]; [left; reflexivity|]. cbn [fold_right]. unfold Rmax at 1 3. destruct (Rle_dec _ _); [|right; left; reflexivity].
    destruct IH as [E|I]; [left; assumption|right; right; assumption]. }
  assert (Mpos : 0 < M).
  { destruct Gpos as (k & Hk & Nk). apply (Rlt_le_trans _ (Rabs (nth k g 0))); [apply Rabs_pos_lt, Nk|]. apply Mup, in_map, nth_In, Hk. }
  assert (Ck : exists i l, doping_change g = i :: l).
  { unfold doping_change. fold M. destruct (Req_EM_T M 0); [lra|]. destruct (Min (map Rabs g)) as [E|I]; [fold M in E; lra|]. fold M in I.
    apply in_map_iff in I. destruct I as (y & Ey & I). destruct (In_nth _ _ 0 I) as (k & Hk & Ek).
    assert (Ik : In k (filter (fun i => lt_b (/ 10 ^ 4) (Rabs (at_ g i) / M)) (seq 0 (length g)))).
    { apply filter_In. split; [apply in_seq; lia|]. apply lt_b_iff. rewrite Ek, Ey. unfold Rdiv. rewrite Rinv_r by lra. lra. }
    destruct (filter _ _) as [|i l]; [destruct Ik|eauto]. }
  destruct Ck as (i & l & Ec).
  assert (Fl : Forall (fun k => (k < length mesh)%nat) (i :: l) /\ StronglySorted lt (i :: l)).
  { rewrite <- Ec. unfold doping_change. destruct (Req_EM_T _ _); [split; constructor|]. split; [|apply filter_seq_sorted].
    apply Forall_forall. intros k I. apply filter_In in I. destruct I as [I _]. apply in_seq in I. lia. }
  destruct Fl as [Fl Sl]. inversion Fl; subst. inversion Sl as [|? ? Sl1 Sl2]; subst. rewrite Forall_forall in Sl2.
  rewrite Ec. cbn [runs bindR].
  assert (Rb := runs_from_bounds (length mesh) i i l ltac:(lia) ltac:(assumption) Sl2 Sl1).
  assert (Sm := increasing_ssorted _ Inc).
  set (x0 := nth 0 mesh 0). set (xn := nth (length mesh - 1) mesh 0).
  assert (B : forall k, (k < length mesh)%nat -> x0 <= nth k mesh 0 <= xn) by (intros k Hk; split; apply increasing_le; auto; lia).
  assert (Loop : forall rs m, Forall (fun p => (fst p <= snd p < length mesh)%nat) rs -> StronglySorted Rlt m -> In x0 m -> In xn m -> (forall x, In x m -> x0 <= x <= xn) ->
     exists m', refine_all ms m (map (fun p => (at_ mesh (fst p), at_ mesh (snd p))) rs) = Ok m' /\ StronglySorted Rlt m' /\ In x0 m' /\ In xn m' /\ (forall x, In x m' -> x0 <= x <= xn)).
  { induction rs as [|(p, r) rs IH]; intros m Fr S I0 I1 Bm; [exists m; cbn; auto|]. inversion Fr as [|? ? Fp Fr']; subst. cbn [fst snd] in Fp.
    cbn [map fst snd refine_all].
    destruct (refine_keeps ms m (at_ mesh p) (at_ mesh r) x0 xn Hms S I0 I1 Bm) as (m1 & E & S1 & A1 & A2 & A3).
    - apply B. lia.
    - apply B. lia.
    - destruct (Nat.eq_dec p r) as [->|N]; [left; reflexivity|right; apply Gap; lia].
    - rewrite E. cbn [bindR]. apply IH; assumption. }
  destruct (Loop _ mesh Rb Sm) as (m & Em & S' & A1 & A2 & A3).
  - apply nth_In. lia.
  - apply nth_In. lia.
  - intros x I. destruct (In_nth _ _ 0 I) as (k & Hk & <-). apply B, Hk.
  - exists m. split; [exact Em|]. apply ssorted_bounds; assumption.
Qed.

(** With the same doping everywhere there is nothing to refine, and the driver fails. *)
Theorem C68_update_constant T omin mesh rho : (2 <= length rho)%nat -> length rho = length mesh ->
  (forall i, (i < length rho)%nat -> nth i rho 0 = nth 0 rho 0) -> update_mesh T omin mesh rho = Err IndexError.
Proof.
  intros L2 Lr Hc. unfold update_mesh. unfold np_gradient. replace (Nat.ltb (length rho) 2) with false by (symmetry; apply Nat.ltb_ge; lia). cbn [bindR].
  set (g := map _ _). assert (Hg : forall x, In x g -> x = 0).
  { intros x I. apply in_map_iff in I. destruct I as (k & <- & I). apply in_seq in I.
    destruct (Nat.eqb k 0) eqn:E; [rewrite (Hc 1%nat) by lia; unfold Rdiv; rewrite Rminus_eq_0; lra|].
    apply Nat.eqb_neq in E. destruct (Nat.eqb k (length rho - 1)) eqn:E'.
    - rewrite (Hc (length rho - 1)%nat), (Hc (length rho - 2)%nat) by lia. unfold Rdiv. rewrite Rminus_eq_0. lra.
    - apply Nat.eqb_neq in E'. cbv zeta. rewrite (Hc (k + 1)%nat), (Hc k), (Hc (k - 1)%nat) by lia. unfold Rdiv.
      match goal with |- ?n * ?d = 0 => replace n with 0 by ring end. lra. }
  assert (Em : fold_right Rmax 0 (map Rabs g) = 0).
  { clearbody g. induction g as [|x g' IH]; [reflexivity|]. cbn [map fold_right]. rewrite (Hg x) by (left; reflexivity). rewrite Rabs_R0, IH by (intros y I; apply Hg; right; assumption).
    unfold Rmax. destruct (Rle_dec 0 0); reflexivity. }
  unfold doping_change. rewrite Em. destruct (Req_EM_T 0 0); [reflexivity|congruence].
Qed.
Example C68_update_example : exists m, update_mesh (/ 10 ^ 4) None [0; / 10 ^ 5; 5 / 10 ^ 5; / 10 ^ 4] [1; 1; -1; -1] = Ok m /\ mesh_of 0 (/ 10 ^ 4) m.
Proof.
  apply C68_update.
  - split; [|split; [discriminate|split; reflexivity]].
    intros i j H. cbn [length] in H. destruct i as [|[|[|i]]]; destruct j as [|[|[|[|j]]]]; try lia; cbn [nth]; lra.
  - reflexivity.
  - cbn [min_spacing]. lra.
  - intros i j H. cbn [length] in H. destruct i as [|[|[|i]]]; destruct j as [|[|[|[|j]]]]; try lia; cbn [nth]; lra.
  - exists 0%nat, 2%nat. cbn. split; [lia|]. split; [lia|]. lra.
Qed.
