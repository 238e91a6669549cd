(** More on property C68 (what the refinements do) and on C118. *)
From Coq Require Import Reals ZArith String List Arith Bool Lia Lra Psatz Permutation Sorted.
From Verif Require Import Common NumModel InterpModel InterpProps NpModel PhysConst SesameModel SesameProps SesameProps2 SesameProps3.
Import ListNotations.
Open Scope R_scope.
Open Scope list_scope.

(** A list has a point at or less than [s] below [x]. *)
Definition near_below (m : list R) (s x : R) : Prop := exists y, In y m /\ y <= x < y + s.

Lemma near_le m s s' x : s <= s' -> near_below m s x -> near_below m s' x.
Proof. intros H (y & I & B). exists y. split; [exact I|lra]. Qed.
Lemma near_incl m m' s x : (forall y, In y m -> In y m') -> near_below m s x -> near_below m' s x.
Proof. intros H (y & I & B). exists y. auto. Qed.

(** The points of [np.linspace] leave no larger gaps than its step. *)
Lemma linspace_gap a b n (e : bool) l x : a < b -> np_linspace a b n e = Ok l -> ((if e then 2 else 1) <= n)%Z -> a <= x < b ->
  near_below l ((b - a) / (IZR n - (if e then 1 else 0))) x.
Proof.
  intros Hab H Hn Hx. unfold np_linspace in H. destruct (Z.ltb n 0) eqn:En; [discriminate|]. apply Z.ltb_ge in En.
  set (m := Z.to_nat n) in *. assert (Hl : l = map (fun i => if Nat.eqb i 0 then a else a + (b - a) * INR i / INR (if e then (m - 1)%nat else m)) (seq 0 m)) by congruence.
  clear H. set (D := if e then (m - 1)%nat else m) in *. set (f := fun i => _) in Hl.
  assert (HD : (0 < D)%nat) by (unfold D, m; destruct e; lia).
  assert (RD : IZR n - (if e then 1 else 0) = INR D).
  { rewrite INR_IZR_INZ. destruct e.
    - rewrite <- minus_IZR. f_equal. unfold D, m. lia.
    - rewrite Rminus_0_r. f_equal. unfold D, m. lia. }
  rewrite RD. assert (PD : 0 < INR D) by (apply lt_0_INR; lia). set (s := (b - a) / INR D).
  assert (Ps : 0 < s) by (unfold s; apply Rmult_lt_0_compat; [lra|apply Rinv_0_lt_compat; lra]).
  assert (Hf : forall i, f i = a + INR i * s).
  { intros i. unfold f. destruct i as [|i]; cbn [Nat.eqb]; [cbn [INR]; lra|]. unfold s, Rdiv. ring. }
  assert (G : forall k, (k <= D)%nat -> a + INR k * s <= x \/ exists i, (i < k)%nat /\ a + INR i * s <= x < a + INR i * s + s).
  { induction k as [|k IH]; intros Hk; [left; cbn; lra|]. destruct (IH ltac:(lia)) as [G|(i & Hi & G)]; [|right; exists i; split; [lia|assumption]].
    rewrite S_INR. destruct (Rle_dec (a + (INR k + 1) * s) x) as [K|K]; [left; assumption|]. right. exists k. split; [lia|]. lra. }
  destruct (G D (le_n _)) as [K|(i & Hi & K)].
  - exfalso. assert (INR D * s = b - a) by (unfold s; field; lra). lra.
  - exists (f i). split; [|rewrite Hf; exact K]. rewrite Hl. apply in_map, in_seq. unfold D in Hi. destruct e; lia.
Qed.
Lemma step_bound L ms n : 0 < ms -> 0 < L -> n = py_int (L / ms) -> (2 <= n)%Z -> L / (IZR n - 1) <= 3 * ms.
Proof.
  intros Hms HL -> Hn. assert (P : 0 <= L / ms) by (apply Rmult_le_pos; [lra|left; apply Rinv_0_lt_compat; lra]).
  destruct (py_int_spec (L / ms) P) as (A & B). set (k := IZR (py_int (L / ms))) in *.
  assert (K : 2 <= k) by (apply (IZR_le 2); exact Hn). clearbody k.
  assert (EL : L = L / ms * ms) by (field; lra). apply Rmult_le_reg_r with (k - 1); [lra|].
  unfold Rdiv at 1. rewrite Rmult_assoc, Rinv_l by lra. rewrite Rmult_1_r, EL.
  assert (L / ms * ms <= (k + 1) * ms) by (apply Rmult_le_compat_r; lra). assert (k + 1 <= 3 * (k - 1)) by lra.
  assert ((k + 1) * ms <= 3 * (k - 1) * ms) by (apply Rmult_le_compat_r; lra). lra.
Qed.
Lemma step_bound1 L ms n : 0 < ms -> 0 < L -> n = py_int (L / ms) -> (1 <= n)%Z -> L / (IZR n - 0) <= 2 * ms.
Proof.
  intros Hms HL -> Hn. assert (P : 0 <= L / ms) by (apply Rmult_le_pos; [lra|left; apply Rinv_0_lt_compat; lra]).
  destruct (py_int_spec (L / ms) P) as (A & B). set (k := IZR (py_int (L / ms))) in *.
  assert (K : 1 <= k) by (apply (IZR_le 1); exact Hn). clearbody k.
  assert (EL : L = L / ms * ms) by (field; lra). apply Rmult_le_reg_r with (k - 0); [lra|].
  unfold Rdiv at 1. rewrite Rmult_assoc, Rinv_l by lra. rewrite Rmult_1_r, EL.
  assert (L / ms * ms <= (k + 1) * ms) by (apply Rmult_le_compat_r; lra).
  assert ((k + 1) * ms <= 2 * k * ms) by (apply Rmult_le_compat_r; lra). lra.
Qed.

(** C68, density: the mesh is fine around the junction: within a tenth of the thickness on
    both sides of it there is always a point less than three times the minimum spacing below. *)
Theorem C68_dense T omin omax d ds m x : mesh_room T (min_spacing omin T) (max_spacing omax T) d ->
  min_spacing omin T <= T / 5 -> make_mesh T omin omax (d :: ds) = Ok m ->
  0 <= x < T -> d - T / 10 <= x < d + T / 10 -> near_below m (3 * min_spacing omin T) x.
Proof.
  intros [HT Hms HMs Hne Hd Hc] Hm5 H Hx Hxd. unfold make_mesh in H. set (ms := min_spacing omin T) in *. set (Ms := max_spacing omax T) in *. clearbody ms Ms.
  assert (Hi10 : / 10 ^ 10 < 200 / 10 ^ 7) by lra.
  destruct (Req_EM_T Ms ms); [contradiction|]. cbv zeta in H.
  assert (Ef : end_front T = 200 / 10 ^ 7 - / 10 ^ 10) by (unfold end_front; apply Rmin_left; lra). rewrite Ef in H.
  set (ef := 200 / 10 ^ 7 - / 10 ^ 10) in *. assert (Hef : 0 < ef) by (unfold ef; lra). clearbody ef.
  assert (Hfs : 0 < Rmin ms (/ 2 / 10 ^ 7)) by (apply Rmin_glb_lt; lra). assert (Hfm := Rmin_l ms (/ 2 / 10 ^ 7)).
  destruct (arange_ok 0 ef _ Hfs) as (fr & Efr). rewrite Efr in H. cbn [bindR] in H.
  destruct (arange_facts _ _ _ _ Hfs Efr) as (F1 & F2 & F3 & _ & F5). specialize (F3 Hef). set (fs := Rmin ms (/ 2 / 10 ^ 7)) in *. clearbody fs.
  assert (Front : forall y, 0 <= y < ef -> near_below fr ms y).
  { intros y Hy. apply (near_le fr fs); [lra|]. destruct (F5 y Hy) as (z & I & B). exists z. auto. }
  destruct (Req_EM_T ef T); [lra|].
  destruct Hc as [(C1 & C2 & C3)|(C1 & C2 & C3)].
  - unfold end_dense in H. destruct (Rlt_dec (d + T / 10) T) as [L|L]; [|lra]. set (ed := d + T / 10) in *.
    destruct (Req_EM_T ed T); [lra|]. destruct (Rlt_dec d (T / 2)); [|contradiction]. destruct (Rlt_dec ef ed); [|lra].
    destruct (np_linspace ef ed (py_int ((ed - ef) / ms)) false) as [dn|?] eqn:Edn; [|discriminate].
    cbn [bindR] in H. destruct (np_linspace ed T _ true) as [rs|?]; [|discriminate]. cbn [bindR] in H.
    apply (f_equal (fun r => match r with Ok y => y | Err _ => [] end)) in H. cbv beta iota in H. subst m.
    destruct (Rlt_dec x ef) as [Lx|Lx].
    + apply (near_incl fr); [intros; apply in_or_app; left; apply in_or_app; now left|]. apply (near_le fr ms); [lra|]. apply Front. lra.
    + destruct (Z_le_gt_dec 1 (py_int ((ed - ef) / ms))) as [N|N].
      * apply (near_incl dn); [intros; apply in_or_app; left; apply in_or_app; now right|].
        eapply near_le; [|apply (linspace_gap ef ed _ false dn x C2 Edn N); lra].
        eapply Rle_trans; [apply (step_bound1 (ed - ef) ms _ Hms ltac:(lra) eq_refl N)|lra].
      * assert (Sh : (ed - ef) / ms < 1).
        { destruct (Rlt_dec ((ed - ef) / ms) 1) as [K|K]; [exact K|]. exfalso.
          pose proof (py_int_ge 1 ((ed - ef) / ms) ltac:(lra) ltac:(lra)). lia. }
        assert (Sh' : ed - ef < ms).
        { apply Rmult_lt_reg_r with (/ ms); [apply Rinv_0_lt_compat; lra|]. rewrite Rinv_r by lra. exact Sh. }
        set (y0 := Rmax 0 (ef - ms / 2)). assert (Y0 : 0 <= y0 < ef) by (unfold y0; split; [apply Rmax_l|apply Rmax_lub_lt; lra]).
        destruct (Front y0 Y0) as (z & I & B). exists z. split; [apply in_or_app; left; apply in_or_app; now left|].
        assert (ef - ms / 2 <= y0) by apply Rmax_r. lra.
  - destruct (Rlt_dec d (T / 2)); [lra|].
    destruct (np_linspace ef (T / 5) _ false) as [df|?]; [|discriminate]. cbn [bindR] in H.
    destruct (np_linspace (T / 5) (d - T / 10) _ false) as [bk|?]; [|discriminate]. cbn [bindR] in H.
    unfold end_dense in H. destruct (Rlt_dec (d + T / 10) T) as [L|L].
    + set (ed := d + T / 10) in *. assert (ed <> T) by lra. destruct (Req_EM_T ed T); [contradiction|].
      destruct (np_linspace (d - T / 10) ed _ false) as [dn|?] eqn:Edn; [|discriminate]. cbn [bindR] in H.
      destruct (np_linspace ed T _ true) as [rs|?]; [|discriminate]. cbn [bindR] in H.
      apply (f_equal (fun r => match r with Ok y => y | Err _ => [] end)) in H. cbv beta iota in H. subst m.
      assert (N : (1 <= py_int ((ed - (d - T / 10)) / ms))%Z) by (apply py_int_ge; apply mk_div; unfold ed; lra).
      apply (near_incl dn); [intros; apply unique_in; do 3 (apply in_or_app; right); apply in_or_app; now left|].
      assert (Hab : d - T / 10 < ed) by (unfold ed; lra).
      eapply near_le; [|apply (linspace_gap _ ed _ false dn x Hab Edn N); lra].
      eapply Rle_trans; [apply (step_bound1 (ed - (d - T / 10)) ms _ Hms ltac:(lra) eq_refl N)|lra].
    + destruct C3 as [[C3 _]|[_ C3]]; [lra|]. destruct (Req_EM_T T T); [|congruence].
      destruct (np_linspace (d - T / 10) T _ true) as [dn|?] eqn:Edn; [|discriminate]. cbn [bindR] in H.
      apply (f_equal (fun r => match r with Ok y => y | Err _ => [] end)) in H. cbv beta iota in H. subst m.
      assert (N : (2 <= py_int ((T - (d - T / 10)) / ms))%Z) by (apply py_int_ge; apply mk_div; lra).
      apply (near_incl dn); [intros; apply unique_in; do 3 (apply in_or_app; right); assumption|].
      assert (Hab : d - T / 10 < T) by lra.
      eapply near_le; [|apply (linspace_gap _ T _ true dn x Hab Edn N); lra].
      apply (step_bound (T - (d - T / 10)) ms _ Hms ltac:(lra) eq_refl N).
Qed.
Example C68_dense_example m : make_mesh (3 / 10 ^ 4) None None [5 / 10 ^ 5] = Ok m -> near_below m (3 * (3 / 10 ^ 4 / 10 ^ 4)) (6 / 10 ^ 5).
Proof.
  intros H. apply (C68_dense (3 / 10 ^ 4) None None (5 / 10 ^ 5) [] m); try assumption; cbn [min_spacing]; try lra.
  constructor; cbn [min_spacing max_spacing]; try lra.
Qed.

(** * The refinement of an existing mesh *)

(** The points that show a notable change of doping, P:428-430. *)
Definition notable (g : list R) (k : nat) : Prop :=
  (k < length g)%nat /\ forall M, (forall i, (i < length g)%nat -> Rabs (nth i g 0) <= M) -> (exists i, (i < length g)%nat /\ Rabs (nth i g 0) = M) ->
    / 10 ^ 4 * M < Rabs (nth k g 0).

Lemma fold_Rmax_max l : l <> [] -> (forall x, In x l -> 0 <= x) -> In (fold_right Rmax 0 l) l /\ forall x, In x l -> x <= fold_right Rmax 0 l.
Proof.
  induction l as [|a l IH]; intros N P; [congruence|]. cbn [fold_right]. destruct l as [|b l].
  - cbn [fold_right]. assert (0 <= a) by (apply P; now left). rewrite Rmax_left by lra. split; [now left|]. intros x [<-|[]]. lra.
  - destruct IH as (I & U); [discriminate|intros; apply P; now right|]. set (M := fold_right Rmax 0 (b :: l)) in *. split.
    + unfold Rmax. destruct (Rle_dec a M); [now right|now left].
    + intros x [<-|Ix]; [apply Rmax_l|]. eapply Rle_trans; [apply U, Ix|apply Rmax_r].
Qed.
Lemma notable_iff g k : (exists i, (i < length g)%nat /\ nth i g 0 <> 0) -> In k (doping_change g) <-> notable g k.
Proof.
  intros (i0 & Hi0 & Ni0). unfold doping_change. set (M := fold_right Rmax 0 (map Rabs g)).
  destruct (fold_Rmax_max (map Rabs g)) as (IM & UM).
  { destruct g; [cbn in Hi0; lia|discriminate]. }
  { intros x I. apply in_map_iff in I as (y & <- & _). apply Rabs_pos. }
  fold M in IM, UM.
  assert (PM : 0 < M).
  { apply Rlt_le_trans with (Rabs (nth i0 g 0)); [apply Rabs_pos_lt, Ni0|]. apply UM, in_map, nth_In, Hi0. }
  assert (HM : (forall i, (i < length g)%nat -> Rabs (nth i g 0) <= M) /\ (exists i, (i < length g)%nat /\ Rabs (nth i g 0) = M)).
  { split; [intros i Hi; apply UM, in_map, nth_In, Hi|]. apply in_map_iff in IM as (y & E & I). apply (In_nth _ _ 0) in I as (i & Hi & <-). eauto. }
  destruct HM as (HM1 & i1 & Hi1 & HM2). destruct (Req_EM_T M 0); [lra|]. rewrite filter_In, in_seq, lt_b_iff. unfold notable.
  assert (D : / 10 ^ 4 < Rabs (nth k g 0) / M <-> / 10 ^ 4 * M < Rabs (nth k g 0)).
  { split; intros H.
    - apply Rmult_lt_reg_r with (/ M); [apply Rinv_0_lt_compat; lra|]. rewrite Rmult_assoc, Rinv_r by lra. unfold Rdiv in H. lra.
    - apply Rmult_lt_reg_r with M; [lra|]. unfold Rdiv. rewrite (Rmult_assoc (Rabs _)), Rinv_l by lra. lra. }
  rewrite D. split.
  - intros ((_ & Hk) & H). split; [lia|]. intros M' U (i & Hi & E). assert (M' = M) as ->; [|exact H].
    apply Rle_antisym; [rewrite <- E; apply HM1, Hi|rewrite <- HM2; apply U, Hi1].
  - intros (Hk & H). split; [lia|]. apply H; [exact HM1|eauto].
Qed.

(** Runs of consecutive indices. *)
Lemma runs_inside (sel : nat -> Prop) first prev l : (forall k, (first <= k <= prev)%nat -> sel k) -> Forall sel l ->
  Forall (fun p => forall k, (fst p <= k <= snd p)%nat -> sel k) (runs_from first prev l).
Proof.
  revert first prev. induction l as [|i l IH]; intros first prev H F; cbn [runs_from]; [repeat constructor; exact H|].
  inversion F as [|? ? Fi Fl]; subst. destruct (Nat.eqb_spec i (S prev)) as [->|Hne].
  - apply IH; [|exact Fl]. intros k Hk. destruct (Nat.eq_dec k (S prev)) as [->|]; [exact Fi|apply H; lia].
  - constructor; [exact H|]. apply IH; [|exact Fl]. intros k Hk. assert (k = i) as -> by lia. exact Fi.
Qed.
Lemma runs_pair first prev l i : StronglySorted lt l -> (forall k, In k l -> (prev < k)%nat) -> (first <= prev)%nat ->
  (first <= i <= prev \/ In i l)%nat -> (first <= S i <= prev \/ In (S i) l)%nat ->
  exists pre a b post, runs_from first prev l = pre ++ (a, b) :: post /\ (a <= i)%nat /\ (S i <= b)%nat /\ Forall (fun p => (b < fst p)%nat) post.
Proof.
  revert first prev. induction l as [|j l IH]; intros first prev Sl G Hf H1 H2; cbn [runs_from].
  - destruct H1 as [H1|[]]. destruct H2 as [H2|[]]. exists [], first, prev, []. repeat split; try lia. constructor.
  - inversion Sl as [|? ? Sl1 Sl2]; subst. rewrite Forall_forall in Sl2. assert (Gj : (prev < j)%nat) by (apply G; now left).
    destruct (Nat.eqb_spec j (S prev)) as [->|Hne].
    + apply IH; try assumption; try lia.
      * destruct H1 as [H1|[H1|H1]]; [left; lia|left; lia|now right].
      * destruct H2 as [H2|[H2|H2]]; [left; lia|left; lia|now right].
    + assert (Post : Forall (fun p => (prev < fst p)%nat) (runs_from j j l)).
      { assert (Z : forall l first' prev', (j <= first' <= prev')%nat -> (forall k, In k l -> (prev' < k)%nat) -> StronglySorted lt l -> Forall (fun p => (prev < fst p)%nat) (runs_from first' prev' l)).
        { clear - Gj. induction l as [|k l IH]; intros f p H G S; cbn [runs_from]; [repeat constructor; cbn; lia|].
          inversion S as [|? ? S1 S2]; subst. rewrite Forall_forall in S2. assert (p < k)%nat by (apply G; now left).
          destruct (Nat.eqb_spec k (Datatypes.S p)); [apply IH; [lia|exact S2|exact S1]|].
          constructor; [cbn; lia|]. apply IH; [lia|exact S2|exact S1]. }
        apply Z; [lia|exact Sl2|exact Sl1]. }
      destruct H1 as [H1|H1].
      * destruct H2 as [H2|H2]; [exists [], first, prev, (runs_from j j l); repeat split; try lia; exact Post|].
        exfalso. destruct H2 as [H2|H2]; [lia|]. specialize (Sl2 _ H2). lia.
      * destruct H2 as [H2|H2]; [exfalso; destruct H1 as [H1|H1]; [lia|specialize (Sl2 _ H1); lia]|].
        destruct (IH j j Sl1 Sl2 (le_n _)) as (pre & a & b & post & E & A & B & P).
        -- destruct H1 as [H1|H1]; [left; lia|now right].
        -- destruct H2 as [H2|H2]; [left; lia|now right].
        -- exists ((first, prev) :: pre), a, b, post. rewrite E. repeat split; assumption.
Qed.

Section Refine.
Context (ms : R) (Hms : 0 < ms).
(** A point outside the refined intervals stays. *)
Lemma refine_all_keeps x rs : forall m m', refine_all ms m rs = Ok m' -> In x m -> Forall (fun ab => x < fst ab \/ snd ab <= x) rs -> In x m'.
Proof.
  induction rs as [|(a, b) rs IH]; intros m m' H I F; cbn [refine_all] in H; [injection H as <-; exact I|].
  inversion F as [|? ? Fa Fr]; subst. cbn [fst snd] in Fa. unfold refine in H.
  destruct (arange a (b - / 10 ^ 12) ms) as [dn|e]; [|discriminate]. cbn [bindR] in H.
  eapply IH; [exact H| |exact Fr]. apply unique_in. destruct Fa as [Fa|Fa].
  - apply in_or_app. left. apply filter_In. split; [exact I|]. now apply lt_b_iff.
  - apply in_or_app. right. apply in_or_app. right. apply filter_In. split; [exact I|]. now apply le_b_iff.
Qed.
(** A refined interval has no gap above the minimum spacing (plus 1e-12 at its end). *)
Lemma refine_all_dense x pre a b post m m' : refine_all ms m (pre ++ (a, b) :: post) = Ok m' -> a + / 10 ^ 12 < b -> a <= x < b ->
  Forall (fun p => b <= fst p) post -> near_below m' (ms + / 10 ^ 12) x.
Proof.
  revert m. induction pre as [|ab pre IH]; intros m H Hab Hx F; cbn [app refine_all] in H.
  - unfold refine in H. destruct (arange a (b - / 10 ^ 12) ms) as [dn|e] eqn:Ed; [|discriminate]. cbn [bindR] in H.
    destruct (arange_facts _ _ _ _ Hms Ed) as (_ & D2 & D3 & _ & D5). assert (Hi : 0 < / 10 ^ 12) by lra.
    set (x' := Rmin x (b - 2 * / 10 ^ 12)). 
    assert (Near : near_below dn (ms + / 10 ^ 12) x).
    { destruct (Rlt_dec x (b - / 10 ^ 12)) as [L|L].
      - destruct (D5 x ltac:(lra)) as (y & I & B). exists y. split; [exact I|lra].
      - (* the last point before b - 1e-12 *)
        assert (Last : exists y, In y dn /\ b - / 10 ^ 12 <= y + ms).
        { assert (El : dn = map (fun i => a + INR i * ms) (seq 0 (length dn))).
          { unfold arange in Ed. destruct (Req_EM_T ms 0); [lra|]. injection Ed as <-. rewrite map_length, seq_length. reflexivity. }
          assert (Ll : (0 < length dn)%nat) by (destruct dn; [destruct (D3 ltac:(lra))|cbn; lia]).
          set (n := (length dn - 1)%nat). assert (Hn : In (a + INR n * ms) dn).
          { rewrite El. apply in_map_iff. exists n. split; [reflexivity|]. apply in_seq. unfold n. lia. }
          exists (a + INR n * ms). split; [exact Hn|]. destruct (Rle_dec (b - / 10 ^ 12) (a + INR n * ms + ms)) as [K|K]; [exact K|]. exfalso.
          destruct (D5 (a + INR n * ms + ms)) as (z & Iz & Bz).
          { assert (0 <= INR n * ms) by (apply Rmult_le_pos; [apply pos_INR|lra]). lra. }
          rewrite El in Iz. apply in_map_iff in Iz as (i & <- & Ii). apply in_seq in Ii.
          assert (INR i <= INR n) by (apply le_INR; unfold n; lia). assert (INR i * ms <= INR n * ms) by (apply Rmult_le_compat_r; lra). lra. }
        destruct Last as (y & I & B). exists y. split; [exact I|]. specialize (D2 y I). lra. }
    destruct Near as (y & I & B). exists y. split; [|exact B].
    eapply refine_all_keeps; [exact H| |].
    + apply unique_in. apply in_or_app. right. apply in_or_app. now left.
    + eapply Forall_impl; [|exact F]. intros p Hp. left. specialize (D2 y I). lra.
  - destruct (refine ms m ab) as [m1|e]; [|discriminate]. cbn [bindR] in H. eapply IH; eassumption.
Qed.
End Refine.

(** C68, refinement: points without a notable change of doping stay in the mesh, and between
    two successive points that both show one there is always a point less than the minimum
    spacing (plus 1e-12 cm) below. *)
Theorem C68_update_dense T omin mesh rho m g a b : mesh_of a b mesh -> length rho = length mesh -> 0 < min_spacing omin T ->
  (forall i j, (i < j < length mesh)%nat -> nth i mesh 0 + / 10 ^ 12 < nth j mesh 0) ->
  np_gradient rho mesh = Ok g -> (exists i, (i < length g)%nat /\ nth i g 0 <> 0) -> update_mesh T omin mesh rho = Ok m ->
  (forall k, (k < length mesh)%nat -> ~ notable g k -> In (nth k mesh 0) m) /\
  (forall k x, notable g k -> notable g (S k) -> nth k mesh 0 <= x < nth (S k) mesh 0 ->
     near_below m (min_spacing omin T + / 10 ^ 12) x).
Proof.
  intros (Inc & Ne & _) Lr Hms Gap Eg Nz H. unfold update_mesh in H. rewrite Eg in H. cbn [bindR] in H.
  set (ms := min_spacing omin T) in *. clearbody ms. pose proof (np_gradient_length _ _ _ Eg) as Lg.
  destruct (doping_change g) as [|i l] eqn:Ec; [discriminate|]. cbn [runs bindR] in H.
  assert (Fl : Forall (fun k => (k < length mesh)%nat) (i :: l) /\ StronglySorted lt (i :: l)).
  { rewrite <- Ec. unfold doping_change. destruct (Req_EM_T _ _); [split; constructor|]. split; [|apply filter_seq_sorted].
    apply Forall_forall. intros k I. apply filter_In in I. destruct I as [I _]. apply in_seq in I. lia. }
  destruct Fl as [Fl Sl]. inversion Fl as [|? ? Fi Fl']; subst. inversion Sl as [|? ? Sl1 Sl2]; subst. rewrite Forall_forall in Sl2.
  assert (Sel : forall k, In k (i :: l) <-> notable g k) by (intros k; rewrite <- Ec; apply notable_iff, Nz).
  assert (Rb := runs_from_bounds (length mesh) i i l ltac:(lia) ltac:(assumption) Sl2 Sl1).
  assert (Ins : Forall (fun p => forall k, (fst p <= k <= snd p)%nat -> notable g k) (runs_from i i l)).
  { apply runs_inside; [intros k Hk; apply Sel; left; lia|]. apply Forall_forall. intros k Ik. apply Sel. now right. }
  split.
  - intros k Hk Nk. eapply refine_all_keeps; [exact H|apply nth_In, Hk|].
    apply Forall_forall. intros ab I. apply in_map_iff in I as ((p, r) & <- & I). cbn [fst snd].
    rewrite Forall_forall in Rb, Ins. specialize (Rb _ I). specialize (Ins _ I). cbn [fst snd] in *.
    destruct (le_lt_dec p k) as [Kp|Kp]; [|left; apply Inc; lia].
    destruct (le_lt_dec k r) as [Kr|Kr]; [exfalso; apply Nk, Ins; lia|]. right. left. apply Inc; lia.
  - intros k x N1 N2 Hx. apply Sel in N1. apply Sel in N2.
    destruct (runs_pair i i l k Sl1 Sl2 (le_n _)) as (pre & p & r & post & E & A & B & P).
    { destruct N1 as [N1|N1]; [left; lia|now right]. }
    { destruct N2 as [N2|N2]; [left; lia|now right]. }
    rewrite E in H, Rb. rewrite map_app in H. cbn [map fst snd] in H.
    assert (Rpr : (p <= r < length mesh)%nat).
    { apply Forall_app in Rb as (_ & Rb). inversion Rb; subst. assumption. }
    eapply refine_all_dense; [exact Hms|exact H|apply Gap; lia| |].
    + assert (nth p mesh 0 <= nth k mesh 0) by (apply increasing_le; [exact Inc|lia]).
      assert (nth (S k) mesh 0 <= nth r mesh 0) by (apply increasing_le; [exact Inc|lia]). lra.
    + apply Forall_forall. intros ab I. apply in_map_iff in I as ((p', r') & <- & I). cbn [fst].
      rewrite Forall_forall in P. specialize (P _ I). cbn [fst] in P.
      apply Forall_app in Rb as (_ & Rb). inversion Rb as [|? ? _ Rb']; subst. rewrite Forall_forall in Rb'. specialize (Rb' _ I). cbn [fst snd] in Rb'.
      left. apply Inc. lia.
Qed.

Example C68_update_dense_example m : update_mesh (/ 10 ^ 4) None [0; / 10 ^ 5; 5 / 10 ^ 5; / 10 ^ 4] [1; 1; -1; -1] = Ok m ->
  In 0 m /\ near_below m (/ 10 ^ 4 / 10 ^ 4 + / 10 ^ 12) (3 / 10 ^ 5).
Proof.
  intros H. pose (g := [0; -10000; - 250000 / 9; 0]).
  assert (Eg : np_gradient [1; 1; -1; -1] [0; / 10 ^ 5; 5 / 10 ^ 5; / 10 ^ 4] = Ok g).
  { unfold np_gradient, g. cbn [length Nat.ltb Nat.leb seq map Nat.eqb Nat.sub Nat.add nth]. do 2 f_equal; [field|]. f_equal; [field|]. f_equal; [field|]. f_equal. field. }
  assert (A2 : Rabs (- 250000 / 9) = 250000 / 9) by (rewrite Rabs_left; lra).
  assert (A1 : Rabs (-10000) = 10000) by (rewrite Rabs_left; lra).
  assert (A0 : Rabs 0 = 0) by apply Rabs_R0.
  assert (Mx : forall i, (i < 4)%nat -> Rabs (nth i g 0) <= 250000 / 9).
  { intros i Hi. destruct i as [|[|[|[|i]]]]; [..|lia]; cbn [g nth]; lra. }
  assert (Nt : forall k, (k < 4)%nat -> (notable g k <-> / 10 ^ 4 * (250000 / 9) < Rabs (nth k g 0))).
  { intros k Hk. split.
    - intros (_ & N). apply N; [exact Mx|]. exists 2%nat. split; [cbn; lia|exact A2].
    - intros L. split; [exact Hk|]. intros M U (i & Hi & E). assert (M <= 250000 / 9) by (rewrite <- E; apply Mx, Hi).
      assert (/ 10 ^ 4 * M <= / 10 ^ 4 * (250000 / 9)) by (apply Rmult_le_compat_l; lra). lra. }
  destruct (C68_update_dense (/ 10 ^ 4) None [0; / 10 ^ 5; 5 / 10 ^ 5; / 10 ^ 4] [1; 1; -1; -1] m g 0 (/ 10 ^ 4)) as (K & D).
  - split; [|split; [discriminate|split; reflexivity]].
    intros i j L. cbn [length] in L. destruct i as [|[|[|i]]]; destruct j as [|[|[|[|j]]]]; try lia; cbn [nth]; lra.
  - reflexivity.
  - cbn [min_spacing]. lra.
  - intros i j L. cbn [length] in L. destruct i as [|[|[|i]]]; destruct j as [|[|[|[|j]]]]; try lia; cbn [nth]; lra.
  - exact Eg.
  - exists 1%nat. split; [cbn; lia|]. cbn [g nth]. lra.
  - exact H.
  - split.
    + apply (K 0%nat); [cbn; lia|]. intros N. apply Nt in N; [|lia]. cbn [g nth] in N. lra.
    + apply (D 1%nat); [apply Nt; [lia|cbn [g nth]; lra]|apply Nt; [lia|cbn [g nth]; lra]|cbn [nth]; lra].
Qed.

(** * C118: the dictionary exists whenever the required data do *)
Theorem C118_complete mat : 
  (forall k, In k ["Nc"; "Nv"; "band_gap"; "electron_affinity"; "relative_permittivity"; "electron_mobility"; "hole_mobility"; "radiative_recombination"; "T"]%string ->
     exists v, mat k = Ok v) ->
  (forall k, In k ["bulk_recombination_energy"; "electron_auger_recombination"; "hole_auger_recombination"]%string ->
     mat k = Err ValueError \/ exists v, mat k = Ok v) ->
  (forall c, In c ["electron"; "hole"]%string -> (exists v, mat (append c "_minority_lifetime") = Ok v) \/
     (mat (append c "_minority_lifetime") = Err ValueError /\ exists v, mat (append c "_diffusion_length") = Ok v)) ->
  exists d, get_material_parameters mat = Ok d.
Proof.
  intros Rq Op Lt. unfold get_material_parameters.
  assert (O : forall k (f : R -> R), In k ["bulk_recombination_energy"; "electron_auger_recombination"; "hole_auger_recombination"]%string ->
    exists v, on_value_error (let! e := mat k in Ok (f e)) (Ok 0) = Ok v).
  { intros k f I. destruct (Op k I) as [->|(v & ->)]; cbn [bindR on_value_error]; eauto. }
  destruct (O "bulk_recombination_energy"%string (fun e => e / q)) as (v1 & ->); [cbn; tauto|].
  destruct (O "electron_auger_recombination"%string (fun e => e * 10 ^ 12)) as (v2 & ->); [cbn; tauto|].
  destruct (O "hole_auger_recombination"%string (fun e => e * 10 ^ 12)) as (v3 & ->); [cbn; tauto|]. cbn [bindR].
  assert (T : forall c, In c ["electron"; "hole"]%string -> exists v, on_value_error (mat (append c "_minority_lifetime")) (lifetime_of mat c) = Ok v).
  { intros c I. destruct (Lt c I) as [(v & ->)|(-> & L & EL)]; cbn [on_value_error]; [eauto|]. unfold lifetime_of.
    destruct (Rq (append c "_mobility")) as (mu & ->); [destruct I as [<-|[<-|[]]]; cbn; tauto|]. rewrite EL.
    destruct (Rq "T"%string) as (T & ->); [cbn; tauto|]. cbn [bindR]. eauto. }
  destruct (T "electron"%string) as (v4 & E4); [cbn; tauto|]. destruct (T "hole"%string) as (v5 & E5); [cbn; tauto|].
  cbn [append] in E4, E5. rewrite E4, E5. cbn [bindR].
  repeat match goal with |- context [mat ?k] => let v := fresh "v" in let E := fresh "E" in destruct (Rq k) as (v & E); [cbn; tauto|rewrite E; cbn [bindR]] end.
  eauto.
Qed.
Example C118_complete_example : exists d, get_material_parameters ex_mat = Ok d.
Proof.
  apply C118_complete.
  - intros k I. cbn in I. repeat (destruct I as [<-|I]; [eexists; reflexivity|]). destruct I.
  - intros k I. cbn in I. repeat (destruct I as [<-|I]; [first [left; reflexivity|right; eexists; reflexivity]|]). destruct I.
  - intros c I. cbn in I. repeat (destruct I as [<-|I]; [first [left; eexists; reflexivity|right; split; [reflexivity|eexists; reflexivity]]|]). destruct I.
Qed.
