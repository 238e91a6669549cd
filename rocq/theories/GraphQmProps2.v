(** Property C192, continued: wavefunctions, band diagrams and options. *)
From Coq Require Import Reals ZArith String List Bool Arith Lra Lia.
From Verif Require Import Common NumModel InterpModel NpModel PhysConst SchrodModel SchrodProps TmmModel PickModel GraphQmModel.
From Coq Require Import List.
From Verif Require Import SchrodModel.
Import ListNotations.
Open Scope R_scope.
Open Scope list_scope.

(** * Wavefunctions *)
(** What is drawn: the function or its square. *)
Definition drawn (square : bool) (psi : list R) : list R := if square then map (fun v => v ^ 2) psi else psi.
Definition span (f : list R) : R := list_max f - list_min f.
(** A point is shown if its part of the span is larger than the threshold. *)
Definition shown_at (trim : R) (f : list R) (k : nat) : bool :=
  if Rlt_dec (trim ^ 2) ((at_ f k / span f) ^ 2) then true else false.
Lemma combine_seq (l m : list R) : length l = length m -> combine l m = map (fun k => (at_ l k, at_ m k)) (seq 0 (length l)).
Proof.
  revert m. induction l as [|a l IH]; intros [|b m] L; try discriminate L; [reflexivity|]. cbn [combine length seq map nth]. f_equal.
  rewrite (IH m) by (cbn in L; lia). rewrite <- seq_shift, map_map. reflexivity.
Qed.
Lemma filter_map_ {A B} (P : B -> bool) (g : A -> B) l : filter P (map g l) = map g (filter (fun a => P (g a)) l).
Proof. induction l as [|a l IH]; [reflexivity|]. cbn. destruct (P (g a)); cbn; now rewrite IH. Qed.
Lemma span_nonneg f : f <> [] -> 0 <= span f.
Proof. intros N. unfold span. pose proof (list_min_le f _ (list_max_in f N)). lra. Qed.
(** Every level of a function that is not constant is drawn, for thresholds below one half: in
    order, the points above the threshold, around the energy of the level and scaled so that the
    whole function spans [scale] electronvolts.  The first point shown is on the side of the
    scale, unless this is suppressed or squares are drawn, which keep their signs. *)
Theorem C192_wave : forall x trim scale sup sq e psi, length psi = length x -> let f := drawn sq psi in span f <> 0 -> Rabs trim < 1 / 2 ->
  exists s xs ys, wave x trim scale sup sq e psi = Ok (xs, ys) /\ (s = 1 \/ s = -1) /\ xs <> [] /\
    xs = map (fun k => at_ x k) (filter (shown_at trim f) (seq 0 (length x))) /\
    ys = map (fun k => e + s * (at_ f k / span f) * (scale * q)) (filter (shown_at trim f) (seq 0 (length x))) /\
    ((sup = true \/ sq = true) -> s = 1) /\
    (sup = false -> sq = false -> 0 <= (at_ ys 0 - e) * scale) /\
    (forall a b, In a ys -> In b ys -> Rabs (a - b) <= Rabs scale * q).
Proof.
  intros x trim scale sup sq e psi L f Sp T. pose proof q_pos as Hq.
  assert (Lf : length f = length x) by (unfold f, drawn; destruct sq; rewrite ?map_length; exact L).
  assert (Nf : f <> []) by (intros E; apply Sp; rewrite E; unfold span; cbn; ring).
  assert (Sp0 : 0 < span f) by (pose proof (span_nonneg f Nf); lra).
  set (n := map (fun v => v / span f * q) f).
  assert (En : normalise_psi f = Ok n).
  { unfold normalise_psi. destruct f as [|v0 f0] eqn:Ef; [easy|]. cbv zeta. fold (span (v0 :: f0)). destruct (Req_EM_T (span (v0 :: f0)) 0); [contradiction|]. reflexivity. }
  assert (An : forall k, at_ n k = at_ f k / span f * q).
  { intros k. unfold n. destruct (Nat.lt_ge_cases k (length f)) as [H|H].
    - set (g := fun v => v / span f * q). rewrite (nth_indep _ 0 (g 0)) by now rewrite map_length. apply (map_nth g).
    - rewrite !nth_overflow by (rewrite ?map_length; exact H). unfold Rdiv. ring. }
  set (ks := filter (shown_at trim f) (seq 0 (length x))).
  assert (V : visible trim (combine x n) = map (fun k => (at_ x k, at_ n k)) ks).
  { unfold visible. rewrite combine_seq by (unfold n; rewrite map_length; congruence). rewrite filter_map_. f_equal. unfold ks. apply filter_ext. intros k. cbn [snd].
    unfold shown_at. rewrite An. replace ((at_ f k / span f * q) ^ 2 / q ^ 2) with ((at_ f k / span f) ^ 2) by (field; lra). reflexivity. }
  assert (NE : ks <> []).
  { assert (B : exists v, In v f /\ span f / 2 <= Rabs v).
    { destruct (Rle_lt_dec (span f / 2) (Rabs (list_max f))) as [H|H]; [exists (list_max f); split; [now apply list_max_in|exact H]|].
      exists (list_min f). split; [now apply list_min_in|]. apply Rabs_def2 in H. unfold span in *. unfold Rabs. destruct (Rcase_abs (list_min f)); lra. }
    destruct B as (v & Hv & Bv). apply (In_nth _ _ 0) in Hv. destruct Hv as (k & Hk & Ek).
    intros C. assert (I : In k ks); [|rewrite C in I; exact I]. unfold ks. apply filter_In. split; [apply in_seq; lia|].
    unfold shown_at. destruct (Rlt_dec _ _) as [_|N]; [reflexivity|]. exfalso. apply N. rewrite Ek, <- (pow2_abs trim), <- (pow2_abs (v / span f)).
    assert (1 / 2 <= Rabs (v / span f)).
    { unfold Rdiv at 2. rewrite Rabs_mult, (Rabs_right (/ span f)) by (apply Rle_ge, Rlt_le, Rinv_0_lt_compat; exact Sp0).
      apply (Rmult_le_reg_r (span f)); [exact Sp0|]. rewrite Rmult_assoc, Rinv_l by lra. lra. }
    pose proof (Rabs_pos trim). nra. }
  assert (Rng : forall k, In k ks -> list_min f / span f <= at_ f k / span f <= list_max f / span f).
  { intros k Hk. unfold ks in Hk. apply filter_In in Hk. destruct Hk as [Hk _]. apply in_seq in Hk.
    assert (I : In (at_ f k) f) by (apply nth_In; lia). pose proof (list_min_le f _ I). pose proof (list_max_ge f _ I).
    split; apply Rmult_le_compat_r; try lra; apply Rlt_le, Rinv_0_lt_compat; exact Sp0. }
  unfold wave. fold (drawn sq psi). fold f. rewrite En. cbn [bindR]. cbv zeta. rewrite V.
  destruct ks as [|k0 ks'] eqn:Ek; [easy|]. cbn [map]. cbn [snd].
  set (s := if Rlt_dec (at_ n k0) 0 then if sup then 1 else if sq then 1 else -1 else 1).
  assert (S2 : s = 1 \/ s = -1) by (unfold s; destruct (Rlt_dec _ _), sup, sq; auto).
  exists s. eexists _, _. split; [reflexivity|]. split; [exact S2|]. split; [discriminate|].
  split; [cbn [fst]; f_equal; rewrite map_map; reflexivity|].
  assert (Y : forall k, e + at_ n k * scale * s = e + s * (at_ f k / span f) * (scale * q)) by (intros k; rewrite An; ring).
  split; [cbn [snd]; f_equal; [apply Y|]; rewrite map_map; apply map_ext; intros k; cbn [snd]; apply Y|].
  split; [intros [->| ->]; unfold s; destruct (Rlt_dec _ _); [| |destruct sup|]; reflexivity|].
  split.
  - intros Hs Hsq. cbn [nth snd]. unfold s. rewrite Hs, Hsq. replace ((e + at_ n k0 * scale * (if Rlt_dec (at_ n k0) 0 then -1 else 1) - e) * scale) with ((at_ n k0 * (if Rlt_dec (at_ n k0) 0 then -1 else 1)) * (scale * scale)) by ring.
    apply Rmult_le_pos; [destruct (Rlt_dec (at_ n k0) 0); lra|]. apply Rle_0_sqr.
  - assert (A : forall a, In a (e + at_ n k0 * scale * s :: map (fun p : R * R => e + snd p * scale * s) (map (fun k => (at_ x k, at_ n k)) ks')) ->
      exists u, a = e + s * u * (scale * q) /\ list_min f / span f <= u <= list_max f / span f).
    { intros a [<-|Ha]; [exists (at_ f k0 / span f); split; [apply Y|apply Rng; now left]|]. rewrite map_map in Ha. apply in_map_iff in Ha. destruct Ha as (k & <- & Hk).
      exists (at_ f k / span f). cbn [snd]. split; [apply Y|apply Rng; now right]. }
    intros a b Ha Hb. cbn [snd] in Ha, Hb. destruct (A a Ha) as (u & -> & Hu), (A b Hb) as (w & -> & Hw).
    replace (e + s * u * (scale * q) - (e + s * w * (scale * q))) with (s * (u - w) * scale * q) by ring.
    rewrite !Rabs_mult, (Rabs_right q) by lra.
    assert (U : Rabs (u - w) <= 1).
    { assert (list_max f / span f - list_min f / span f = 1) by (unfold span in *; field; lra). unfold Rabs. destruct (Rcase_abs _); lra. }
    assert (Sa : Rabs s = 1) by (destruct S2 as [-> | ->]; [apply Rabs_R1|rewrite Rabs_left; lra]). rewrite Sa.
    pose proof (Rabs_pos scale). pose proof (Rabs_pos (u - w)). apply Rmult_le_compat_r; [lra|]. nra.
Qed.
Example C192_wave_ex : span (drawn false [0; -1; 1; 0]) = 2 /\ length [0; -1; 1; 0] = length [1; 2; 3; 4].
Proof. split; [|reflexivity]. unfold span, drawn. cbn. unfold Rmax, Rmin. repeat destruct (Rle_dec _ _); lra. Qed.
(** All levels are drawn, each with its function. *)
Theorem C192_waves : forall x E Psi trim scale sup sq, length E = length Psi -> Rabs trim < 1 / 2 ->
  (forall psi, In psi Psi -> length psi = length x /\ span (drawn sq psi) <> 0) ->
  exists ds, waves x E Psi trim scale sup sq = Ok ds /\ length ds = length E /\
    forall i d, (i < length E)%nat -> wave x trim scale sup sq (at_ E i) (nth i Psi []) = Ok (nth i ds d).
Proof.
  intros x E Psi trim scale sup sq L T. revert Psi L. unfold waves. induction E as [|e E IH]; intros [|psi Psi] L H; try discriminate L.
  - exists []. repeat split. cbn. lia.
  - destruct (IH Psi) as (ds & D1 & D2 & D3); [cbn in L; lia|intros p Hp; apply H; now right|].
    destruct (H psi (or_introl eq_refl)) as [H1 H2].
    destruct (C192_wave x trim scale sup sq e psi H1 H2 T) as (s & xs & ys & W & _).
    exists ((xs, ys) :: ds). cbn [combine mapRR fst snd]. rewrite W. cbn [bindR]. rewrite D1. split; [reflexivity|]. split; [cbn; lia|].
    intros [|i] d Hi; [exact W|]. cbn [nth]. apply D3. cbn in Hi. lia.
Qed.
(** With larger thresholds nothing may be left, which raises. *)
Theorem C192_trim_refuted : exists x trim psi, length psi = length x /\ span (drawn false psi) <> 0 /\ 0 < trim < 1 /\
  wave x trim 1 false false 0 psi = Err IndexError.
Proof.
  exists [0; 1], (3 / 4), [1; -1]. pose proof q_pos as Hq.
  assert (M : list_max [1; -1] - list_min [1; -1] = 2) by (cbn; unfold Rmax, Rmin; repeat destruct (Rle_dec _ _); lra).
  split; [reflexivity|]. split; [unfold span, drawn; lra|]. split; [lra|].
  unfold wave, normalise_psi. cbv zeta. rewrite M. destruct (Req_EM_T 2 0) as [E|_]; [exfalso; lra|]. cbn [bindR map combine]. unfold visible. cbn [filter snd].
  replace ((1 / 2 * q) ^ 2 / q ^ 2) with (1 / 4) by (field; lra). replace ((-1 / 2 * q) ^ 2 / q ^ 2) with (1 / 4) by (field; lra).
  destruct (Rlt_dec ((3 / 4) ^ 2) (1 / 4)); [exfalso; lra|]. reflexivity.
Qed.

(** * Structures *)
Fixpoint width_of (ls : list edge_layer) : R := match ls with [] => 0 | l :: r => el_width l + width_of r end.
Lemma staircase_spec ls : forall x xs cs vs, staircase x ls = (xs, cs, vs) ->
  length xs = (2 * length ls)%nat /\ length cs = (2 * length ls)%nat /\ length vs = (2 * length ls)%nat /\
  forall i d, (i < length ls)%nat ->
    at_ xs (2 * i) = x + width_of (firstn i ls) /\ at_ xs (2 * i + 1) = x + width_of (firstn i ls) + el_width (nth i ls d) /\
    at_ cs (2 * i) = el_Ec (nth i ls d) /\ at_ cs (2 * i + 1) = el_Ec (nth i ls d) /\
    at_ vs (2 * i) = el_Ev (nth i ls d) /\ at_ vs (2 * i + 1) = el_Ev (nth i ls d).
Proof.
  induction ls as [|l ls IH]; intros x xs cs vs E; cbn [staircase] in E.
  - injection E as <- <- <-. repeat split; cbn in *; lia.
  - destruct (staircase (x + el_width l) ls) as [[a b] c] eqn:Q. injection E as <- <- <-.
    destruct (IH _ _ _ _ Q) as (L1 & L2 & L3 & H). split; [cbn [length]; lia|]. split; [cbn [length]; lia|]. split; [cbn [length]; lia|].
    intros [|i] d Hi; [cbn; repeat split; ring|].
    replace (2 * S i)%nat with (S (S (2 * i))) by lia. replace (S (S (2 * i)) + 1)%nat with (S (S (2 * i + 1))) by lia.
    cbn [nth firstn width_of]. destruct (H i d ltac:(cbn in Hi; lia)) as (H1 & H2 & H3 & H4 & H5 & H6).
    rewrite H1, H2, H3, H4, H5, H6. repeat split; ring.
Qed.
(** The band diagram is flat in every layer, from the end of the layers above to its own end, at
    the band edges of the layer. *)
Theorem C192_bands : forall ls xs cs vs, staircase 0 ls = (xs, cs, vs) ->
  length xs = (2 * length ls)%nat /\ length cs = length xs /\ length vs = length xs /\
  forall i d, (i < length ls)%nat ->
    at_ xs (2 * i) = width_of (firstn i ls) /\ at_ xs (2 * i + 1) = width_of (firstn (S i) ls) /\
    at_ cs (2 * i) = el_Ec (nth i ls d) /\ at_ cs (2 * i + 1) = el_Ec (nth i ls d) /\
    at_ vs (2 * i) = el_Ev (nth i ls d) /\ at_ vs (2 * i + 1) = el_Ev (nth i ls d).
Proof.
  intros ls xs cs vs E. destruct (staircase_spec ls 0 xs cs vs E) as (L1 & L2 & L3 & H). split; [exact L1|]. split; [congruence|]. split; [congruence|].
  intros i d Hi. destruct (H i d Hi) as (H1 & H2 & H3). rewrite Rplus_0_l in H1, H2. split; [exact H1|]. split; [|exact H3]. rewrite H2.
  clear - Hi. revert i Hi. induction ls as [|l ls IH]; intros [|i] Hi; cbn [length] in Hi; try lia; [cbn; ring|].
  cbn [firstn width_of nth]. cbn [firstn width_of] in IH. rewrite <- IH by lia. ring.
Qed.
Example C192_bands_ex : staircase 0 [EdgeLayer 1 5 3; EdgeLayer 2 4 1] = ([0; 0 + 1; 0 + 1; 0 + 1 + 2], [5; 5; 4; 4], [3; 3; 1; 1]).
Proof. reflexivity. Qed.

(** * Options *)
Section Opt.
Context {V : Type}.
Definition get (d : list (string * V)) (k : string) : option V :=
  match find (fun p => String.eqb (fst p) k) d with Some p => Some (snd p) | None => None end.
Lemma get_store d k v n : get (store d k v) n = if String.eqb k n then Some v else get d n.
Proof.
  unfold get. induction d as [|[a w] d IH]; cbn [store find fst snd]; [destruct (String.eqb k n); reflexivity|].
  destruct (String.eqb_spec a k) as [->|N]; cbn [find fst snd].
  - destruct (String.eqb k n); reflexivity.
  - destruct (String.eqb_spec a n) as [->|N2]; [|exact IH]. destruct (String.eqb_spec k n); [congruence|reflexivity].
Qed.
(** The last value given for a name. *)
Fixpoint given (kw : list (string * V)) (n : string) : option V :=
  match kw with
  | [] => None
  | (k, v) :: r => match given r n with Some w => Some w | None => if String.eqb k n then Some v else None end
  end.
Lemma get_update kw : forall d n, get (update d kw) n = match given kw n with Some v => Some v | None => get d n end.
Proof.
  unfold update. induction kw as [|[k v] kw IH]; intros d n; [reflexivity|]. cbn [fold_left fst snd given]. rewrite IH, get_store.
  destruct (given kw n); [reflexivity|]. destruct (String.eqb k n); reflexivity.
Qed.
(** Options given win over the defaults of the module, which do not change. *)
Theorem C192_options : forall defaults kw o d', graph_options defaults kw = (o, d') ->
  d' = defaults /\ forall n, get o n = match given kw n with Some v => Some v | None => get defaults n end.
Proof. intros defaults kw o d' [= <- <-]. split; [reflexivity|]. intros n. apply get_update. Qed.
(** Not so for the split graph: options given are not used, but by all graphs drawn later. *)
Theorem C192_options_refuted : forall no defaults kw n v kw2, n <> "square"%string -> given kw n = Some v ->
  get (fst (split_options no defaults kw)) n = get defaults n /\
  (given kw2 n = None -> get (fst (graph_options (snd (split_options no defaults kw)) kw2)) n = Some v).
Proof.
  intros no defaults kw n v kw2 N G. split.
  - cbn [split_options fst]. rewrite get_store. destruct (String.eqb_spec "square" n); [congruence|reflexivity].
  - intros G2. cbn [split_options snd graph_options fst]. rewrite get_update, G2, get_update, G. reflexivity.
Qed.
End Opt.
Example C192_options_ex : given [("xlabel", 1); ("title", 2)]%string "title" = Some 2 /\ get (fst (graph_options [("xlabel", 0)]%string [("xlabel", 1)]%string)) "xlabel" = Some 1.
Proof. split; reflexivity. Qed.
