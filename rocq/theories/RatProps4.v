(** C147: cells that are not lists of different, known elements; examples for C147 and C149. *)
From Coq Require Import Reals String List Arith Bool Lra Lia Psatz.
From Coquelicot Require Import Coquelicot.
From Verif Require Import Common TmmLayersModel TmmModel TmmProps IncModel IncProps
  StackModel RatModel RatProps RatProps2.
From Coq Require Import List.
Import ListNotations.
Open Scope R_scope.
Open Scope list_scope.

(** * An element whose type is not exactly Layer, Junction or TunnelJunction *)
Lemma collect_short : forall objs acc,
  (length (snd (fold_left (fun acc o =>
    match o with
    | OLayer l => (fst acc ++ [l], snd acc ++ [1%nat])
    | OJunction ls | OTunnel ls => (fst acc ++ ls, snd acc ++ [length ls])
    | OOther => acc
    end) objs acc)) <= length (snd acc) + length objs)%nat /\
  (In OOther objs -> length (snd (fold_left (fun acc o =>
    match o with
    | OLayer l => (fst acc ++ [l], snd acc ++ [1%nat])
    | OJunction ls | OTunnel ls => (fst acc ++ ls, snd acc ++ [length ls])
    | OOther => acc
    end) objs acc)) < length (snd acc) + length objs)%nat.
Proof.
  induction objs as [|o objs IH]; intros acc; cbn [fold_left length In]; [split; [lia|easy]|].
  set (acc' := match o with OLayer l => _ | OJunction ls => _ | OTunnel ls => _ | OOther => acc end).
  destruct (IH acc') as [I1 I2].
  assert (L : (length (snd acc') <= length (snd acc) + 1)%nat).
  { unfold acc'. destruct o; cbn [snd]; rewrite ?app_length; cbn [length]; lia. }
  assert (L' : o = OOther -> (length (snd acc') = length (snd acc))%nat) by (intros ->; reflexivity).
  clearbody acc'. split; [lia|]. intros [E|E]; [specialize (L' E); lia|specialize (I2 E); lia].
Qed.
Lemma shares_short initial A : forall objs counts layer, (length counts < length objs)%nat ->
  shares initial A counts layer objs = Err IndexError.
Proof.
  induction objs as [|o objs IH]; intros counts layer H; [cbn in H; lia|]. cbn [shares].
  destruct counts as [|n counts]; [reflexivity|]. cbn [shares]. rewrite IH by (cbn in H; lia). reflexivity.
Qed.
(** Nothing is stored for such a cell: the calculation of the stack may fail, and when it does
    not the assignment of the results does. *)
Theorem C147_foreign : forall o shading (c : cell) wls BL theta pol cl,
  In OOther (map snd c) -> wls <> [] ->
  exists e, solve_tmm o shading c wls BL theta pol cl = Err e /\
    (forall t s, (forall wl, In wl wls -> is_ok (calculate_rat o s (wl * 10 ^ 9) theta pol (fst t) (snd t)) = true) ->
       s = full_stack (layers_of c) ->
       treatment BL wls (map l_width (layers_of c)) (length (layers_of c)) cl = Ok t -> e = IndexError).
Proof.
  intros o shading c wls BL theta pol cl Hin Hw. unfold solve_tmm. cbv zeta.
  assert (EC : fst (collect (map snd c)) = layers_of c).
  { unfold collect, layers_of.
    assert (G : forall acc, fst (fold_left (fun acc o =>
      match o with
      | OLayer l => (fst acc ++ [l], snd acc ++ [1%nat])
      | OJunction ls | OTunnel ls => (fst acc ++ ls, snd acc ++ [length ls])
      | OOther => acc
      end) (map snd c) acc) = fst acc ++ concat (map (fun p => members (snd p)) c)).
    { clear. induction c as [|[i o] c IH]; intros acc; cbn [map fold_left concat]; [now rewrite app_nil_r|].
      rewrite IH. cbn [snd]. destruct o; cbn [fst members]; rewrite <- ?app_assoc; reflexivity. }
    exact (G ([], [])). }
  assert (EL : (length (snd (collect (map snd c))) < length (map snd c))%nat).
  { destruct (collect_short (map snd c) ([], [])) as [_ G]. exact (G Hin). }
  rewrite EC. set (n := snd (collect (map snd c))) in *. clearbody n.
  destruct (full_stack_fields (layers_of c)) as (_ & _ & _ & E4). rewrite E4.
  destruct (treatment _ _ _ _ cl) as [t|e] eqn:ET; cbn [bindR]; [|exists e; split; [reflexivity|congruence]].
  destruct wls as [|wl wls]; [congruence|]. cbn [mapRR]. unfold at_wavelength at 1.
  destruct (calculate_rat o _ (wl * 10 ^ 9) theta pol (fst t) (snd t)) as [r|e] eqn:ER; cbn [bindR].
  - rewrite shares_short by exact EL. cbn [bindR]. exists IndexError. split; reflexivity.
  - exists e. split; [reflexivity|]. intros t' s H -> Ht. injection Ht as <-.
    specialize (H wl (or_introl eq_refl)). rewrite ER in H. discriminate.
Qed.

(** * One element at two places of the cell *)
Lemma jmat_same pol x v : den pol x x <> 0%C -> fa pol x <> 0%C -> fb pol x <> 0%C -> mapply (jmat pol x x) v = v.
Proof.
  intros D A B. assert (T2 := two_neq). unfold jmat, mapply, mscale, rq, tq, den in *. cbn [m00 m01 m10 m11].
  destruct v as [a b]. cbn [fst snd]. set (p := fa pol x) in *. set (q := fb pol x) in *. clearbody p q.
  assert (E : (1 / (2 * p * q / (p * q + p * q)))%C = RtoC 1).
  { rewrite two_def. replace ((1 + 1) * p * q)%C with (p * q + p * q)%C by ring. field. split; [exact D|].
    intros F. apply (f_equal fst) in F. cbn in F. lra. }
  rewrite E. replace ((p * q - p * q) / (p * q + p * q))%C with (RtoC 0).
  2:{ replace (p * q - p * q)%C with (RtoC 0) by ring. unfold Cdiv. ring. }
  apply f_equal2; ring.
Qed.
Lemma matched_fluxes pol lam beta n d1 d2 t : valid_pol pol -> 0 <= beta -> passive beta n ->
  let u d := exp (2 * Im (dl lam beta n d)) in
  let f0 := fl pol beta n (t, RtoC 0) in
  fluxes pol lam beta [(n, d1); (n, d2)] n t = [u d1 * u d2 * f0; u d2 * f0; f0].
Proof.
  intros Hpol Hb Hp u f0.
  assert (D := passive_den pol beta n n Hpol Hb Hp Hp).
  assert (AB : fa pol (med beta n) <> 0%C /\ fb pol (med beta n) <> 0%C).
  { split; intros E; apply D; unfold den; rewrite E; ring. }
  assert (F : forall d s, mapply (pmat (dl lam beta n d)) (s, RtoC 0) = ((cexp (- (Ci * dl lam beta n d)) * s)%C, RtoC 0)).
  { intros d s. unfold mapply, pmat. cbn [m00 m01 m10 m11 fst snd]. f_equal; ring. }
  assert (S : forall d s, fl pol beta n ((cexp (- (Ci * dl lam beta n d)) * s)%C, RtoC 0) = u d * fl pol beta n (s, RtoC 0)).
  { intros d s. rewrite !fl_forward, Cmod_mult, Cmod_cexp. unfold u.
    replace (Re (- (Ci * dl lam beta n d))%C) with (Im (dl lam beta n d)) by (destruct (dl lam beta n d); cbn; ring).
    replace (2 * Im (dl lam beta n d)) with (Im (dl lam beta n d) + Im (dl lam beta n d)) by ring. rewrite exp_plus. ring. }
  cbn [fluxes nxt]. rewrite !front_cons. cbn [nxt]. change (front pol lam beta [] n t) with (t, RtoC 0).
  rewrite !jmat_same by tauto. rewrite !F, !S.
  fold f0. apply (f_equal2 (@cons R)); [apply eq_sym, Rmult_assoc|reflexivity].
Qed.
Lemma Ok_inj {X} (a b : X) : Ok a = Ok b -> a = b.
Proof. now intros [=]. Qed.
(** Two layers of 10 nm and index 2 + i on a substrate of the same index, at 500 nm, entered as
    one Layer object twice. The elements keep only the absorption of the lower one, and what the
    upper one absorbs is reported as transmitted. *)
Theorem C147_reuse_refuted : exists o L wl r A,
  let c := [(0%nat, OLayer L); (0%nat, OLayer L)] in
  solve_tmm o 0 c [wl] true 0 "s" None = Ok [r] /\
  by_layer (stack_n 1 (optical o c wl) (n_back o wl)) (stack_d (optical o c wl)) 0 (wl * 10 ^ 9) "s" A /\
  length A = 4%nat /\
  op_layers r = [nth 2 A 0; nth 2 A 0] /\ nth 2 A 0 < nth 1 A 0 /\
  op_abs r < nth 1 A 0 + nth 2 A 0 /\ nth 3 A 0 < op_trans r.
Proof.
  set (L := Lay (/ 10 ^ 8) (fun _ => 2) (fun _ => 1)).
  set (o := Outer (Some (fun _ => 2, fun _ => 1)) None false).
  set (c := [(0%nat, OLayer L); (0%nat, OLayer L)]).
  set (wl := 5 / 10 ^ 7).
  set (n := (2, 1) : C).
  assert (EI : index_of wl L = n) by (unfold index_of, L, n; cbn [l_n l_k]; apply C_eq; cbn; ring).
  assert (EO : optical o c wl = [(n, 10); (n, 10)]).
  { unfold optical, layers_of, c, o. cbn [map concat members snd app o_noback]. rewrite EI. unfold L. cbn [l_width].
    replace (/ 10 ^ 8 * 10 ^ 9) with 10 by field. reflexivity. }
  assert (EB : n_back o wl = n) by (unfold n_back, o, n; cbn [o_sub]; apply C_eq; cbn; ring).
  assert (EW : wl * 10 ^ 9 = 500) by (unfold wl; field).
  assert (R0 : radians 0 = 0) by (unfold radians; ring).
  assert (Hp : passive 0 n) by (unfold passive, n; cbn; lra).
  assert (PI3 := PI_RGT_0). assert (PI4 := PI_4).
  assert (Vs : valid_pol "s") by (left; reflexivity).
  destruct (passive_k 0 n (Rle_refl 0) Hp) as [(K1 & K2 & K3) K].
  assert (KN : (n * cos_in 0 n)%C = n).
  { set (k := (n * cos_in 0 n)%C) in *. clearbody k. destruct k as [x y].
    assert (Q := f_equal Im K). assert (Q' := f_equal Re K). unfold n in Q, Q'. cbn in Q, Q', K1, K2.
    assert (x = 2 /\ y = 1) as [X Y].
    { clear - Q Q' K1 K2.
      assert (Z : (x * x - 4) * (x * x + 1) = 0).
      { replace ((x * x - 4) * (x * x + 1)) with (x * x * (x * x) - 3 * (x * x) - 4) by ring.
        replace (x * x * (x * x)) with (x * x * (y * y + 3)) by (f_equal; lra).
        replace (x * x * (y * y + 3)) with ((x * y) * (x * y) + 3 * (x * x)) by ring.
        replace (x * y) with 2 by lra. ring. }
      apply Rmult_integral in Z. destruct Z as [Z|Z]; [|nra].
      assert (x = 2) by nra. split; [assumption|]. subst x. lra. }
    unfold n. now rewrite X, Y. }
  assert (DP := delta_parts 500 n (cos_in 0 n) 10 ltac:(lra)). rewrite KN in DP. unfold n in DP at 3 4. cbn [Re Im fst snd] in DP.
  assert (DL : Im (dl 500 0 n 10) = 2 * PI * 10 / 500 * 1).
  { unfold dl, delta_of, med. cbn [fst snd]. unfold cap_delta. rewrite DP. cbn [Im snd].
    destruct (Rlt_dec _ _) as [F|_]; [exfalso; lra|reflexivity]. }
  assert (Hm : medium_ok "s" 500 0 (n, 10)).
  { split; [exact Hp|]. split; [cbn; lra|]. left. cbn [fst snd]. rewrite DP. cbn [Im snd]. lra. }
  assert (HM : Forall (medium_ok "s" 500 0) [(n, 10); (n, 10)]) by (apply Forall_cons; [exact Hm|apply Forall_cons; [exact Hm|constructor]]).
  assert (B0 : 1 * sin (radians 0) = 0) by (rewrite R0, sin_0; ring).
  destruct (rat_coherent o (full_stack (layers_of c)) (wl * 10 ^ 9) 0 "s" 1 (optical o c wl) (n_back o wl) None)
    as (r & mid & E1 & E2 & E3 & E4 & E5 & E6 & E7 & E8 & E9).
  { now rewrite (indices_optical o c wl). }
  { now apply widths_optical. }
  { lra. } { lra. } { rewrite R0. lra. } { left. now left. }
  { intros q [[_ ->]|[F _]]; [|destruct (F ltac:(cbn; tauto))]. rewrite B0, EW, EO. exact HM. }
  { rewrite B0, EB. exact Hp. }
  destruct E7 as [[_ HB]|[F _]]; [|destruct (F ltac:(cbn; tauto))].
  assert (HB' := HB). destruct HB as (d & D1 & D2).
  rewrite EO, EB, R0, EW in D1.
  assert (C0 : RtoC (cos 0) = cos_in 0 1).
  { rewrite <- (cos_in_angle 1 0 ltac:(lra) ltac:(lra)). rewrite sin_0. do 2 f_equal. ring. }
  rewrite C0 in D1.
  rewrite (coh_tmm_stack "s" 1 (sin 0) (cos_in 0 1) _ n 500 0 Vs) in D1 by (rewrite sin_0; ring).
  cbv zeta in D1. injection D1 as D1.
  change (out "s" 500 0 1 (cos_in 0 1) [(n, 10); (n, 10)] n = d) in D1. subst d.
  assert (T1 : transparent 0 1) by (unfold transparent; cbn; lra).
  destruct (powers_out "s" 500 0 1 [(n, 10); (n, 10)] n Vs ltac:(lra) (Rle_refl 0) T1 HM Hp) as (P1 & P2 & P3).
  rewrite (matched_fluxes "s" 500 0 n 10 10 _ Vs (Rle_refl 0) Hp) in P1. rewrite DL in P1.
  rewrite fl_forward in P1.
  unfold absorp_in_each_layer in D2. rewrite P1 in D2. cbn [bindR] in D2. apply Ok_inj in D2.
  set (t := (1 / m00 (mt "s" 500 0 1 [(n, 10); (n, 10)] n))%C) in *.
  clearbody t. set (u := exp (2 * (2 * PI * 10 / 500 * 1))) in *.
  assert (U : 1 < u).
  { assert (Q : exp 0 < u) by (apply exp_increasing; lra). rewrite exp_0 in Q. exact Q. }
  clearbody u. set (a := A0 "s" 1 (cos_in 0 1)) in *. clearbody a.
  set (X := Re (cond "s" (med 0 n)) * Cmod t ^ 2) in *.
  cbn [map drops] in D2.
  replace (u * X / a) with (u * (X / a)) in D2 by (unfold Rdiv; ring).
  replace (u * u * X / a) with (u * u * (X / a)) in D2 by (unfold Rdiv; ring).
  set (x := X / a) in *. clearbody x. clear P1 X.
  assert (Tl : ra_T r = clamp0 x).
  { assert (Q := f_equal (fun l => last l 0) E2). cbn beta in Q. rewrite app_comm_cons, last_last in Q.
    rewrite <- Q, <- D2. reflexivity. }
  assert (X0 : 0 < x) by (rewrite Tl in E9; unfold clamp0 in E9; destruct (Rlt_dec x 0); lra).
  assert (Q1 : clamp0 x = x) by (unfold clamp0; destruct (Rlt_dec x 0); lra).
  assert (Q2 : clamp0 (u * x - x) = u * x - x) by (unfold clamp0; destruct (Rlt_dec (u * x - x) 0); nra).
  assert (Q3 : clamp0 (u * u * x - u * x) = u * u * x - u * x).
  { unfold clamp0. destruct (Rlt_dec (u * u * x - u * x) 0); [|reflexivity]. exfalso.
    assert (0 < u * x) by nra. nra. }
  rewrite Q1, Q2, Q3 in D2.
  assert (ER : ra_R r = clamp0 (1 - u * u * x)).
  { assert (Q := f_equal (hd 0) E2). cbn [hd app] in Q. rewrite <- Q, <- D2. reflexivity. }
  set (rho := clamp0 (1 - u * u * x)) in *. clearbody rho.
  rewrite <- D2 in E5. cbn [total] in E5.
  assert (Lt : u * x - x < u * u * x - u * x).
  { replace (u * u * x - u * x) with (u * (u * x - x)) by ring. assert (0 < u * x - x) by nra. nra. }
  eexists o, L, wl, _, (ra_layers r). cbv zeta. fold c. split; [|split].
  - unfold solve_tmm. cbv zeta. rewrite (collect_spec c) by (repeat constructor; discriminate). cbn [fst snd].
    unfold treatment. cbn [bindR np_max fold_left].
    replace (existsb (thick wl) (map l_width (layers_of c))) with false.
    2:{ symmetry. apply existsb_thick. unfold c, layers_of, L, wl. cbn [map concat members snd app l_width].
        repeat apply Forall_cons; try lra; constructor. }
    cbn [bindR fst snd mapRR]. unfold at_wavelength. rewrite E1. cbn [bindR]. rewrite <- D2.
    unfold c at 1 2 3 4 5 6. cbn [inner tl removelast map members snd fst length shares bindR firstn skipn Nat.add stored combine fold_left Nat.eqb add_up].
    reflexivity.
  - rewrite R0 in HB'. exact HB'.
  - rewrite <- D2. cbn [length nth op_layers op_abs op_trans]. unfold stored. cbn [combine map fst fold_left Nat.eqb snd].
    rewrite ER. split; [reflexivity|]. split; [f_equal; [ring|f_equal; ring]|]. split; [exact Lt|]. split; [lra|].
    unfold c. cbn [combine map fst fold_left Nat.eqb snd add_up]. lra.
Qed.

(** * Examples *)
Lemma cos_in_0 n : cos_in 0 n = 1%C.
Proof.
  unfold cos_in, sin_in. replace (RtoC 0 / n)%C with (RtoC 0) by (unfold Cdiv; ring).
  replace (1 - 0 * 0)%C with (RtoC 1) by ring. unfold csqrt. rewrite Cmod_1. cbn [Re Im fst snd RtoC].
  replace ((1 + 1) / 2) with 1 by field. replace ((1 - 1) / 2) with 0 by field. rewrite sqrt_1, sqrt_0.
  destruct (Rlt_dec 0 0); [lra|]. apply C_eq; cbn; ring.
Qed.
Lemma benign_0 q lam n d : valid_pol q -> 0 <= Im n <= 100 * Re n -> benign q lam 0 (n, d).
Proof.
  intros Hq Hn. right. unfold benign. cbn [fst snd]. rewrite cos_in_0.
  destruct n as [a b]. cbn [Re Im fst snd] in Hn.
  destruct Hq as [->| ->]; [left|right]; (split; [reflexivity|]); cbn.
  - rewrite Rabs_pos_eq by lra. lra.
  - replace (a * 0 + - b * 1) with (- b) by ring. rewrite Rabs_Ropp, Rabs_pos_eq by lra. lra.
Qed.
(** An antireflective layer and a junction of two absorbing layers, without reflection from the
    back, in unpolarised light of two wavelengths at normal incidence. *)
Example C147_example :
  let o := Outer None None true in
  let c : cell := [(0%nat, OLayer (Lay (/ 10 ^ 7) (fun _ => 2) (fun _ => 0)));
                   (1%nat, OJunction [Lay (5 / 10 ^ 7) (fun _ => 3) (fun _ => / 10); Lay (/ 10 ^ 6) (fun _ => 4) (fun _ => / 5)])] in
  let wls := [4 / 10 ^ 7; 5 / 10 ^ 7] in
  Forall known c /\ NoDup (map fst c) /\ layers_of c <> [] /\ 0 <= 0 * PI / 180 < PI / 2 /\ mixed_light "u" /\
  (exists w, In w wls /\ Forall (fun l => l_width l <= 10 * w) (layers_of c)) /\
  (forall wl, In wl wls -> 0 < wl /\ 0 < front_index o wl /\
     let beta := front_index o wl * sin (0 * PI / 180) in
     passive beta (n_back o wl) /\
     forall q, needed "u" q ->
       Forall (fun x => passive beta (fst x) /\ 0 <= snd x /\ benign q (wl * 10 ^ 9) beta x) (optical o c wl)).
Proof.
  intros o c wls. assert (P0 := PI_RGT_0). assert (R0 : 0 * PI / 180 = 0) by (unfold Rdiv; ring).
  split; [repeat constructor; discriminate|]. split; [repeat constructor; cbn; lia|]. split; [discriminate|].
  split; [rewrite R0; lra|]. split; [intros [F|[F|[F|[F|[]]]]]; discriminate F|]. split.
  { exists (4 / 10 ^ 7). split; [now left|]. unfold c, layers_of. cbn [map concat members snd app l_width].
    repeat apply Forall_cons; cbn [l_width]; try lra; constructor. }
  intros wl Hw. assert (W : 0 < wl /\ wl <= 5 / 10 ^ 7) by (destruct Hw as [<-|[<-|[]]]; lra).
  assert (FI : front_index o wl = 1) by reflexivity.
  split; [lra|]. split; [rewrite FI; lra|]. cbv zeta. rewrite R0, sin_0, FI, Rmult_0_r.
  split; [unfold passive, n_back; cbn; lra|]. intros q Hq.
  assert (Vq : valid_pol q) by (destruct Hq as [[[F|F] _]|[_ V]]; [discriminate F|discriminate F|exact V]).
  assert (M : forall n d, 1 <= Re n -> 0 <= Im n -> Im n <= Re n -> 0 <= d ->
    passive 0 (fst (n, d)) /\ 0 <= snd (n, d) /\ benign q (wl * 10 ^ 9) 0 (n, d)).
  { intros n d H1 H2 H3 H4. cbn [fst snd]. split; [|split; [exact H4|apply benign_0; [exact Vq|lra]]].
    unfold passive. destruct n as [a b]. cbn in *. repeat split; nra. }
  assert (Mx : Rmax (1000 * wl) (/ 5) = / 5) by (apply Rmax_right; lra).
  unfold optical, layers_of, c, o, index_of, absorber.
  cbn [map concat members snd app l_width l_n l_k rev o_noback]. rewrite Mx.
  repeat apply Forall_cons; try (apply M; cbn; lra). constructor.
Qed.
Example C147_thick_example :
  let c : cell := [(0%nat, OLayer (Lay (/ 10 ^ 7) (fun _ => 2) (fun _ => 0))); (1%nat, OLayer (Lay (/ 10 ^ 3) (fun _ => 3) (fun _ => 0)))] in
  let wls := [4 / 10 ^ 7; 5 / 10 ^ 7] in
  Forall known c /\ longest wls (5 / 10 ^ 7) /\
  Exists (fun w => 10 * (5 / 10 ^ 7) < w) (map l_width (layers_of c)) /\
  Forall2 (fun w x => (10 * (5 / 10 ^ 7) < w /\ x = "i"%string) \/ (w <= 10 * (5 / 10 ^ 7) /\ x = "c"%string))
    (map l_width (layers_of c)) ["c"%string; "i"%string].
Proof.
  intros c wls. split; [repeat constructor; discriminate|].
  split; [split; [right; now left|repeat apply Forall_cons; try lra; constructor]|].
  unfold c, layers_of. cbn [map concat members snd app l_width]. split.
  - apply Exists_cons_tl, Exists_cons_hd. lra.
  - apply Forall2_cons; [right; split; [lra|reflexivity]|]. apply Forall2_cons; [left; split; [lra|reflexivity]|constructor].
Qed.
Example C147_incoherent_example :
  let o := Outer (Some (fun _ => 3, fun _ => / 10)) None false in
  let c : cell := [(0%nat, OLayer (Lay (/ 10 ^ 7) (fun _ => 2) (fun _ => / 10))); (1%nat, OLayer (Lay (/ 10 ^ 3) (fun _ => 3 / 2) (fun _ => 0)))] in
  let wl := / 10 ^ 6 in
  let cl := ["c"%string; "i"%string] in
  let l : list seg := [([((2, 0.1) : C, 100)], ((1.5, 0) : C, Some 1000000)); ([], ((3, 0.1) : C, None))] in
  let beta := front_index o wl * sin (0 * PI / 180) in
  let x := optical o c wl in
  stack_n (front_index o wl) x (n_back o wl) = all_n (front_index o wl) l /\
  stack_d x = all_d l /\ kinds (o_noback o) cl = all_c l /\
  structure l /\ steep beta (front_index o wl) /\ Forall (fun s : seg => steep beta (fst (snd s))) l /\
  Forall (fun s : seg => transparent beta (fst (snd s))) (removelast l) /\
  passive beta (fst (snd (last l ([], (RtoC 0, None))))) /\
  Forall (fun s : seg => Forall (medium_ok "s" (wl * 10 ^ 9) beta) (fst s)) l /\
  Forall (not_opaque "s" (wl * 10 ^ 9) beta) (joints (front_index o wl) l).
Proof.
  intros o c wl cl l beta x.
  assert (EI : forall a b, (RtoC a + RtoC b * Ci)%C = (a, b)) by (intros; apply C_eq; cbn; ring).
  assert (EO : x = [((2, / 10), 100); ((3 / 2, 0), 1000000)]).
  { unfold x, optical, layers_of, c, o, index_of. cbn [map concat members snd app l_width l_n l_k o_noback].
    rewrite !EI. replace (/ 10 ^ 7 * 10 ^ 9) with 100 by field. replace (/ 10 ^ 3 * 10 ^ 9) with 1000000 by field. reflexivity. }
  assert (EB : n_back o wl = (3, / 10)) by (unfold n_back, o; cbn [o_sub]; apply EI).
  assert (FI : front_index o wl = 1) by reflexivity.
  assert (EW : wl * 10 ^ 9 = 1000) by (unfold wl; field).
  assert (Eb : beta = 1 * sin 0) by (unfold beta; rewrite FI; f_equal; f_equal; unfold Rdiv; ring).
  assert (N1 : 0.1 = / 10) by lra. assert (N2 : 1.5 = 3 / 2) by lra.
  rewrite EO, EB, FI, EW, Eb. split; [|split; [|split; [|exact C84_example]]].
  - unfold l. cbn. rewrite N1, N2. reflexivity.
  - reflexivity.
  - reflexivity.
Qed.
Example C149_example :
  let beta := 1 * sin (0 * PI / 180) in
  let l : list (C * R) := [((2, 0), 100); ((3, / 10), 500)] in
  0 <= 0 * PI / 180 < PI / 2 /\ mixed_light "u" /\
  (forall q, needed "u" q ->
     Forall (fun x => passive beta (fst x) /\ 0 <= snd x /\ Im (kz_of 500 (fst x) (cos_in beta (fst x)) * snd x)%C <= 100) l) /\
  passive beta (4, 0) /\
  (forall q A, needed "u" q -> by_layer (stack_n 1 l (4, 0)) (stack_d l) (0 * PI / 180) 500 q A ->
     forall i, (i < length l)%nat -> nth (S i) A 0 = 0 \/ 0 <= nth (S i) A 0).
Proof.
  intros beta l. assert (P0 := PI_RGT_0). assert (P4 := PI_4). assert (R0 : 0 * PI / 180 = 0) by (unfold Rdiv; ring).
  assert (Eb : beta = 0) by (unfold beta; rewrite R0, sin_0; ring). rewrite Eb. clearbody beta.
  split; [rewrite R0; lra|]. split; [intros [F|[F|[F|[F|[]]]]]; discriminate F|]. split; [|split].
  - intros q _. unfold l. repeat apply Forall_cons; try constructor; cbn [fst snd]; rewrite ?cos_in_0;
      try (unfold passive; cbn; lra); (split; [lra|]); rewrite delta_parts by lra; cbn; lra.
  - unfold passive. cbn. lra.
  - intros q A _ (d & _ & E) i _. right. unfold absorp_in_each_layer in E.
    destruct (powers d) as [p|]; [|discriminate]. cbn [bindR] in E. apply Ok_inj in E. subst A.
    assert (F : Forall (fun x => 0 <= x) (map clamp0 (drops p))).
    { apply Forall_map, Forall_forall. intros y _. unfold clamp0. destruct (Rlt_dec y 0); lra. }
    destruct (Nat.lt_ge_cases (S i) (length (map clamp0 (drops p)))) as [H|H].
    + apply (proj1 (Forall_forall _ _) F), nth_In, H.
    + rewrite nth_overflow by exact H. lra.
Qed.
