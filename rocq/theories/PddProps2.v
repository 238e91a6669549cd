(** Properties C65 (the temperature), C109 (convergence options) and C110 (every layer
    reaches the solver) of the drift-diffusion driver. *)
From Coq Require Import Reals String List Bool ZArith Arith Lra Lia Psatz.
From Verif Require Import Common InterpModel InterpProps NpModel PhysConst PddModel PddProps.
From Coq Require Import List.
Import ListNotations.
Open Scope R_scope.
Open Scope string_scope.
Open Scope list_scope.

(** * What a computation does to the Fortran module *)

Lemma fortran_after_app cs l : fortran_after (cs ++ l) = fold_left fstep l (fortran_after cs).
Proof. unfold fortran_after. now rewrite fold_left_app. Qed.

(** [m] never changes the variable k. *)
Definition quiet {A} (k : string) (m : io A) : Prop :=
  forall cs, f_var (fortran_after (fst (m cs))) k = f_var (fortran_after cs) k.
Lemma quiet_ret {A} k (a : A) : quiet k (ret a).
Proof. intros cs. reflexivity. Qed.
Lemma quiet_lift {A} k (r : res A) : quiet k (lift r).
Proof. intros cs. reflexivity. Qed.
Lemma quiet_bind {A B} k (m : io A) (f : A -> io B) : quiet k m -> (forall a, quiet k (f a)) -> quiet k (bindI m f).
Proof.
  intros Hm Hf cs. unfold bindI. specialize (Hm cs). destruct (m cs) as [cs' [a|e]]; cbn [fst] in *; [|exact Hm].
  now rewrite Hf.
Qed.
Definition sets (c : call) (k : string) : Prop :=
  match c with
  | CSet k' _ => k' = k
  | CReset => In k ["clamp"; "atol"; "rtol"; "nitermax"]
  | _ => False
  end.
Lemma fstep_quiet s c k : ~ sets c k -> f_var (fstep s c) k = f_var s k.
Proof.
  intros H. destruct c; cbn [fstep f_var] in *; try reflexivity.
  - unfold upd. destruct (String.eqb_spec k name); [|reflexivity]. elim H. now symmetry.
  - unfold reset_vars, upd. destruct (String.eqb_spec k "nitermax"); [elim H; simpl; auto 10|].
    destruct (String.eqb_spec k "rtol"); [elim H; simpl; auto 10|].
    destruct (String.eqb_spec k "atol"); [elim H; simpl; auto 10|].
    destruct (String.eqb_spec k "clamp"); [elim H; simpl; auto 10|]. reflexivity.
Qed.
Lemma quiet_emit k c : ~ sets c k -> quiet k (emit c).
Proof. intros H cs. cbn [emit fst]. rewrite fortran_after_app. cbn [fold_left]. now apply fstep_quiet. Qed.

Lemma quiet_set_all k o l : ~ In k (map fst l) -> quiet k (set_all o l).
Proof.
  induction l as [|[f key] l IH]; intros H; cbn [set_all]; [apply quiet_ret|].
  apply quiet_bind; [apply quiet_lift|]. intros v. apply quiet_bind; [apply quiet_emit|].
  - cbn [sets]. intros E. apply H. left. exact E.
  - intros _. apply IH. intros Hin. apply H. now right.
Qed.
Lemma quiet_layer_loop k d fuel : forall i, quiet k (layer_loop fuel d i).
Proof.
  induction fuel as [|fuel IH]; intros i; cbn [layer_loop]; [apply quiet_lift|].
  destruct (Z.ltb i (d_numlayers d)); [|apply quiet_ret]. destruct (py_index _ _); [|apply quiet_lift].
  apply quiet_bind; [apply quiet_emit; cbn [sets]; tauto|]. intros _. apply IH.
Qed.
Ltac quiet_emit_tac := apply quiet_emit; cbn [sets]; first [tauto | simpl; intuition discriminate].

Lemma quiet_t_process dflt J T mesh o : quiet "t" (process_structure dflt J T mesh o).
Proof.
  unfold process_structure. apply quiet_bind; [apply quiet_set_all; simpl; intuition discriminate|]. intros _. cbv zeta.
  apply quiet_bind; [apply quiet_lift|]. intros _. apply quiet_bind; [quiet_emit_tac|]. intros _.
  apply quiet_bind; [apply quiet_layer_loop|]. intros _. repeat (apply quiet_bind; [quiet_emit_tac|]; intros _). quiet_emit_tac.
Qed.
Lemma quiet_t_equilibrium dflt J o : quiet "t" (equilibrium_pdd dflt J o).
Proof.
  unfold equilibrium_pdd. destruct (clash _ _); [apply quiet_lift|]. apply quiet_bind; [apply quiet_lift|]. intros T. cbv zeta.
  apply quiet_bind; [apply quiet_t_process|]. intros _. apply quiet_bind; [quiet_emit_tac|]. intros _. quiet_emit_tac.
Qed.
Lemma quiet_t_short dflt J o : quiet "t" (short_circuit_pdd dflt J o).
Proof.
  unfold short_circuit_pdd. destruct (clash _ _); [apply quiet_lift|]. destruct (lookup "wavelength" o); [|apply quiet_lift].
  destruct (lookup "light_source" o); [|apply quiet_lift]. cbv zeta. apply quiet_bind; [apply quiet_t_equilibrium|].
  intros _. repeat (apply quiet_bind; [quiet_emit_tac|]; intros _). quiet_emit_tac.
Qed.
Lemma quiet_t_calculate dflt slv J vl vs li le o : quiet "t" (calculate_iv dflt slv J vl vs li le o).
Proof.
  unfold calculate_iv. destruct (clash _ _); [apply quiet_lift|]. cbv zeta. apply quiet_bind.
  - destruct (truthy li); [apply quiet_t_short|apply quiet_t_equilibrium].
  - intros _. apply quiet_bind; [quiet_emit_tac|]. intros _. apply quiet_bind; [intros cs; reflexivity|]. intros cs.
    destruct (runiv_voltages _ _); [apply quiet_ret|apply quiet_lift].
Qed.
Lemma quiet_t_iv dflt slv J o : quiet "t" (iv_pdd dflt slv J o).
Proof.
  unfold iv_pdd. destruct (clash _ _); [apply quiet_lift|]. destruct (lookup "internal_voltages" o); [|apply quiet_lift].
  repeat (apply quiet_bind; [first [apply quiet_lift | destruct (Rlt_dec _ _); [apply quiet_t_calculate|apply quiet_ret]]|]; intros ?; cbv zeta).
  apply quiet_ret.
Qed.

Lemma bind_same {A B} (m : io A) (f f' : A -> io B) cs :
  (forall a cs', m cs = (cs', Ok a) -> f a cs' = f' a cs') -> bindI m f cs = bindI m f' cs.
Proof. intros H. unfold bindI. destruct (m cs) as [cs' [a|e]]; [|reflexivity]. now apply H. Qed.
Lemma bind_ext {A B} (m m' : io A) (f f' : A -> io B) cs :
  m cs = m' cs -> (forall a cs', f a cs' = f' a cs') -> bindI m f cs = bindI m' f' cs.
Proof. intros E H. unfold bindI. rewrite E. destruct (m' cs) as [cs' [a|e]]; [|reflexivity]. apply H. Qed.
Lemma bind_lift_ok {A B} (a : A) (f : A -> io B) cs : bindI (lift (Ok a)) f cs = f a cs.
Proof. reflexivity. Qed.
Lemma lift_ok {A} (r : res A) cs cs' a : lift r cs = (cs', Ok a) -> r = Ok a /\ cs' = cs.
Proof. unfold lift. intros [= -> ->]. auto. Qed.

(** * A device structure does not depend on its temperature *)

Lemma add_layers_T dflt ls : forall d d', d_numlayers d = d_numlayers d' -> d_layers d = d_layers d' ->
  d_sn d = d_sn d' -> d_sp d = d_sp d' ->
  let r := add_layers dflt d ls in let r' := add_layers dflt d' ls in
  snd r = snd r' /\ d_numlayers (fst r) = d_numlayers (fst r') /\ d_layers (fst r) = d_layers (fst r') /\
  d_sn (fst r) = d_sn (fst r') /\ d_sp (fst r) = d_sp (fst r').
Proof.
  induction ls as [|l ls IH]; intros d d' E1 E2 E3 E4; cbn [add_layers]; [cbn [fst snd]; auto|].
  change (get_layer_properties dflt l (d_T d)) with (get_layer_properties dflt l (d_T d')).
  destruct (get_layer_properties dflt l (d_T d')) as [p|e]; [|cbn [fst snd]; auto].
  apply IH; cbn [d_numlayers d_layers d_sn d_sp]; congruence.
Qed.
Lemma layer_loop_T fuel d d' : d_numlayers d = d_numlayers d' -> d_layers d = d_layers d' ->
  forall i cs, layer_loop fuel d i cs = layer_loop fuel d' i cs.
Proof.
  intros E1 E2. induction fuel as [|fuel IH]; intros i cs; [reflexivity|]. cbn [layer_loop]. rewrite E1, E2.
  destruct (Z.ltb i (d_numlayers d')); [|reflexivity]. destruct (py_index _ _) as [j|]; [|reflexivity].
  unfold bindI. cbn [emit]. apply IH.
Qed.
Lemma process_T dflt J T T' mesh o cs : process_structure dflt J T mesh o cs = process_structure dflt J T' mesh o cs.
Proof.
  unfold process_structure. apply bind_same. intros _ cs1 _. cbv zeta.
  destruct (add_layers_T dflt (j_layers J)
     {| d_T := T; d_numlayers := 0; d_layers := []; d_sn := default 1000000 (j_sn J); d_sp := default 1000000 (j_sp J) |}
     {| d_T := T'; d_numlayers := 0; d_layers := []; d_sn := default 1000000 (j_sn J); d_sp := default 1000000 (j_sp J) |}
     eq_refl eq_refl eq_refl eq_refl) as (E0 & E1 & E2 & E3 & E4).
  change (add_layers dflt {| d_T := T; d_numlayers := 0; d_layers := []; d_sn := default 1000000 (j_sn J); d_sp := default 1000000 (j_sp J) |} (j_layers J))
    with (create_device dflt T J) in *.
  change (add_layers dflt {| d_T := T'; d_numlayers := 0; d_layers := []; d_sn := default 1000000 (j_sn J); d_sp := default 1000000 (j_sp J) |} (j_layers J))
    with (create_device dflt T' J) in *.
  rewrite E0, E3, E4, E2. apply bind_same. intros _ cs2 _. apply bind_same. intros _ cs3 _. apply bind_ext; [|reflexivity].
  now apply layer_loop_T.
Qed.

(** * C65: the temperature *)

Lemma lookup_without {A} k k' (o : list (string * A)) : k <> k' -> lookup k (without k' o) = lookup k o.
Proof.
  intros H. unfold lookup, without. induction o as [|[a v] o IH]; [reflexivity|]. cbn [filter find fst].
  destruct (String.eqb_spec a k') as [->|Hn]; cbn [negb].
  - destruct (String.eqb_spec k' k) as [E|E]; [now symmetry in E|]. exact IH.
  - cbn [find fst]. destruct (String.eqb_spec a k); [reflexivity|]. exact IH.
Qed.
Lemma lookup_without_same {A} k (o : list (string * A)) : lookup k (without k o) = None.
Proof.
  unfold lookup, without. induction o as [|[a v] o IH]; [reflexivity|]. cbn [filter fst].
  destruct (String.eqb_spec a k) as [E|E]; cbn [negb]; [exact IH|]. cbn [find fst].
  destruct (String.eqb_spec a k); [contradiction|]. exact IH.
Qed.

(** Setting the temperature in the options. *)
Definition at_temperature (T : R) (o : kwargs) : kwargs := ("T", Num T) :: o.

Lemma equilibrium_T dflt J T T' o cs :
  equilibrium_pdd dflt J (at_temperature T o) cs = equilibrium_pdd dflt J (at_temperature T' o) cs.
Proof.
  unfold equilibrium_pdd, at_temperature.
  replace (clash ["junction"] (("T", Num T') :: o)) with (clash ["junction"] (("T", Num T) :: o)) by reflexivity.
  destruct (clash _ _); [reflexivity|]. change (as_num (default (Num 298) (lookup "T" (("T", Num T) :: o)))) with (Ok T).
  change (as_num (default (Num 298) (lookup "T" (("T", Num T') :: o)))) with (Ok T'). cbv zeta.
  change (without "T" (("T", Num T) :: o)) with (without "T" o). change (without "T" (("T", Num T') :: o)) with (without "T" o).
  change (lookup "meshpoints" (("T", Num T) :: o)) with (lookup "meshpoints" o).
  change (lookup "meshpoints" (("T", Num T') :: o)) with (lookup "meshpoints" o).
  change (lookup "output_equilibrium" (("T", Num T) :: o)) with (lookup "output_equilibrium" o).
  change (lookup "output_equilibrium" (("T", Num T') :: o)) with (lookup "output_equilibrium" o).
  set (o1 := without "meshpoints" (without "output_equilibrium" (without "T" o))).
  change (bindI (lift (Ok T)) ?f cs) with (f T cs).
  etransitivity; [|reflexivity]. unfold bindI at 1. unfold lift. cbn beta iota.
  etransitivity; [apply bind_ext; [apply (process_T dflt J T T')|reflexivity]|]. reflexivity.
Qed.
Lemma short_T dflt J T T' o cs :
  short_circuit_pdd dflt J (at_temperature T o) cs = short_circuit_pdd dflt J (at_temperature T' o) cs.
Proof.
  unfold short_circuit_pdd, at_temperature.
  replace (clash ["junction"] (("T", Num T') :: o)) with (clash ["junction"] (("T", Num T) :: o)) by reflexivity.
  destruct (clash _ _); [reflexivity|].
  change (lookup "wavelength" (("T", Num T) :: o)) with (lookup "wavelength" o).
  change (lookup "wavelength" (("T", Num T') :: o)) with (lookup "wavelength" o).
  change (lookup "light_source" (("T", Num T) :: o)) with (lookup "light_source" o).
  change (lookup "light_source" (("T", Num T') :: o)) with (lookup "light_source" o).
  destruct (lookup "wavelength" o); [|reflexivity]. destruct (lookup "light_source" o); [|reflexivity]. cbv zeta.
  set (o1 := without "output_sc" (without "light_source" (without "wavelength" o))).
  change (without "output_sc" (without "light_source" (without "wavelength" (("T", Num T) :: o)))) with (at_temperature T o1).
  change (without "output_sc" (without "light_source" (without "wavelength" (("T", Num T') :: o)))) with (at_temperature T' o1).
  apply bind_ext; [apply equilibrium_T|reflexivity].
Qed.

Lemma find_voltage_limits_inside gap hi lo pn T : 0 <= T -> hi <= gap -> - gap <= lo -> find_voltage_limits gap hi lo pn T = (hi, lo).
Proof.
  intros HT Hh Hl. pose proof kb_pos. pose proof q_pos. unfold find_voltage_limits.
  assert (0 <= 3 * kb * T / q).
  { apply Rmult_le_pos; [nra|]. left. now apply Rinv_0_lt_compat. }
  destruct pn; f_equal; [apply Rmin_right; lra|apply Rmax_right]. unfold Rdiv in *. lra.
Qed.
Lemma np_min_spec l m : np_min l = Ok m -> In m l /\ forall y, In y l -> m <= y.
Proof.
  destruct l as [|x l]; [discriminate|]. intros [= <-].
  assert (H : forall l x, (fold_left Rmin l x <= x) /\ (forall y, In y l -> fold_left Rmin l x <= y) /\
     (fold_left Rmin l x = x \/ In (fold_left Rmin l x) l)).
  { clear. induction l as [|y l IH]; intros x; cbn [fold_left].
    - split; [lra|]. split; [intros y []|now left].
    - destruct (IH (Rmin x y)) as (I1 & I2 & I3). pose proof (Rmin_l x y). pose proof (Rmin_r x y). split; [lra|]. split.
      + intros z [<-|Hz]; [lra|auto].
      + destruct I3 as [I3|I3]; [|right; now right]. rewrite I3. unfold Rmin. destruct (Rle_dec x y); [now left|right; now left]. }
  destruct (H l x) as (H1 & H2 & H3). split; [destruct H3 as [-> |H3]; [now left|now right]|]. intros y [<-|Hy]; auto.
Qed.

(** The property fails.  No solver entry point ever hands a temperature to the Fortran
    module, whose own variable stays what it was (300 K in a fresh session) whatever the
    options are; the equilibrium, short circuit and quantum efficiency computations make
    exactly the same calls at all temperatures; and so does iv_pdd, with the same
    results, as long as the requested voltages stay below the smallest band gap.  The
    temperature only moves the limit beyond the gap. *)
Theorem C65_temperature_ignored dflt slv J o cs :
  (forall m, In m [fun cs => fst (equilibrium_pdd dflt J o cs); fun cs => fst (short_circuit_pdd dflt J o cs);
                   fun cs => fst (qe_pdd dflt J o cs); fun cs => fst (iv_pdd dflt slv J o cs)] ->
     f_var (fortran_after (m cs)) "t" = f_var (fortran_after cs) "t") /\
  (forall T T', equilibrium_pdd dflt J (at_temperature T o) cs = equilibrium_pdd dflt J (at_temperature T' o) cs /\
                short_circuit_pdd dflt J (at_temperature T o) cs = short_circuit_pdd dflt J (at_temperature T' o) cs /\
                qe_pdd dflt J (at_temperature T o) cs = qe_pdd dflt J (at_temperature T' o) cs) /\
  (forall T T' gap vs, 0 <= T -> 0 <= T' -> find_minimum_bandgap J = Ok gap -> lookup "internal_voltages" o = Some (Vec vs) ->
     (exists v, In v vs /\ 0 < v) -> (forall v, In v vs -> - gap <= v <= gap) ->
     iv_pdd dflt slv J (at_temperature T o) cs = iv_pdd dflt slv J (at_temperature T' o) cs).
Proof.
  split; [|split].
  - intros m Hm. simpl in Hm. destruct Hm as [<-|[<-|[<-|[<-|[]]]]].
    + apply quiet_t_equilibrium.
    + apply quiet_t_short.
    + assert (Q : quiet "t" (qe_pdd dflt J o)).
      { unfold qe_pdd. apply quiet_bind; [apply quiet_lift|intros _; apply quiet_t_short]. }
      apply Q.
    + apply quiet_t_iv.
  - intros T T'. split; [apply equilibrium_T|]. split; [apply short_T|]. unfold qe_pdd, bindI, lift.
    change (attr "output_qe" (at_temperature T o)) with (attr "output_qe" o).
    change (attr "output_qe" (at_temperature T' o)) with (attr "output_qe" o).
    destruct (attr "output_qe" o); [apply short_T|reflexivity].
  - intros T T' gap vs HT HT' Hg Hl (v0 & Hv0 & Hpos) Hb. unfold iv_pdd.
    replace (clash ["junction"] (at_temperature T' o)) with (clash ["junction"] (at_temperature T o)) by reflexivity.
    destruct (clash _ _); [reflexivity|]. unfold at_temperature.
    change (lookup "internal_voltages" (("T", Num T) :: o)) with (lookup "internal_voltages" o).
    change (lookup "internal_voltages" (("T", Num T') :: o)) with (lookup "internal_voltages" o). rewrite Hl.
    change (lookup "light_iv" (("T", Num T) :: o)) with (lookup "light_iv" o).
    change (lookup "light_iv" (("T", Num T') :: o)) with (lookup "light_iv" o).
    change (lookup "output_iv" (("T", Num T) :: o)) with (lookup "output_iv" o).
    change (lookup "output_iv" (("T", Num T') :: o)) with (lookup "output_iv" o).
    set (rest := without "output_iv" (without "light_iv" (without "T" (without "internal_voltages" o)))).
    change (without "output_iv" (without "light_iv" (without "T" (without "internal_voltages" (("T", Num T) :: o))))) with rest.
    change (without "output_iv" (without "light_iv" (without "T" (without "internal_voltages" (("T", Num T') :: o))))) with rest.
    change (default (Num 298) (lookup "T" (("T", Num T) :: o))) with (Num T).
    change (default (Num 298) (lookup "T" (("T", Num T') :: o))) with (Num T').
    rewrite Hg. cbn [as_vec as_num]. cbv zeta.
    apply bind_same. intros given cs1 E. apply lift_ok in E as [E ->]. injection E as <-.
    rewrite (bind_lift_ok T), (bind_lift_ok T').
    apply bind_same. intros top cs1 E. apply lift_ok in E as [E ->].
    destruct (np_max_spec vs top E) as [M1 M2].
    assert (0 < top) by (specialize (M2 v0 Hv0); lra). destruct (Rle_dec top 0) as [|_]; [lra|].
    apply bind_same. intros g cs1 Eg. apply lift_ok in Eg as [Eg ->]. injection Eg as <-.
    do 3 (apply bind_same; intros ? cs1 Ex; apply lift_ok in Ex as [_ ->]).
    apply bind_same. intros hi cs1 Ex. apply lift_ok in Ex as [Ex ->]. apply np_max_spec in Ex as [Hhi _].
    apply bind_same. intros lo cs1 Ex. apply lift_ok in Ex as [Ex ->]. apply np_min_spec in Ex as [Hlo _].
    pose proof (Hb hi Hhi). pose proof (Hb lo Hlo).
    rewrite !find_voltage_limits_inside by lra. reflexivity.
Qed.

(** * What reaches the solver *)

Lemma bind_inv {A B} (m : io A) (f : A -> io B) cs cs' b : bindI m f cs = (cs', Ok b) ->
  exists a cs1, m cs = (cs1, Ok a) /\ f a cs1 = (cs', Ok b).
Proof. unfold bindI. destruct (m cs) as [cs1 [a|e]]; [|discriminate]. intros H. exists a, cs1. auto. Qed.
Lemma emit_inv c cs cs' u : emit c cs = (cs', Ok u) -> cs' = cs ++ [c].
Proof. unfold emit. now intros [= <-]. Qed.

Lemma set_all_ok o l : forall cs cs' u, set_all o l cs = (cs', Ok u) ->
  exists vs, Forall2 (fun fk v => lookup (snd fk) o = Some v) l vs /\
    cs' = cs ++ map (fun fv => CSet (fst fv) (snd fv)) (combine (map fst l) vs).
Proof.
  induction l as [|[f k] l IH]; intros cs cs' u; cbn [set_all].
  - intros [= <- _]. exists []. split; [constructor|]. now rewrite app_nil_r.
  - intros H. apply bind_inv in H as (v & c1 & H1 & H). apply lift_ok in H1 as [Hv ->].
    apply bind_inv in H as (x & c2 & H1 & H). apply emit_inv in H1 as ->.
    destruct (IH _ _ _ H) as (vs & F & ->). exists (v :: vs). split.
    + constructor; [|exact F]. unfold attr in Hv. cbn [snd]. destruct (lookup k o); [now injection Hv as ->|discriminate].
    + cbn [map combine fst snd]. now rewrite <- app_assoc.
Qed.

Lemma nth_skipn_cons {A} (l : list A) j d : (j < length l)%nat -> skipn j l = nth j l d :: skipn (S j) l.
Proof.
  revert j. induction l as [|x l IH]; intros j Hj; simpl in Hj; [lia|]. destruct j as [|j]; [reflexivity|].
  simpl. rewrite (IH j) by lia. reflexivity.
Qed.
Lemma layer_loop_S n d i : layer_loop (S n) d i =
  if Z.ltb i (d_numlayers d) then
    match py_index (length (d_layers d)) i with
    | None => lift (Err IndexError)
    | Some j => bindI (emit (CAddLayer (layer_args (dl_properties (nth j (d_layers d) (DevLayer 1 []))))))
                  (fun _ => layer_loop n d (i + dl_numlayers (nth j (d_layers d) (DevLayer 1 []))))
    end
  else ret tt.
Proof. reflexivity. Qed.
Lemma layer_loop_ok d : counted d -> forall n j cs, (n + j = length (d_layers d))%nat ->
  layer_loop (S n) d (Z.of_nat j) cs
  = (cs ++ map (fun l => CAddLayer (layer_args (dl_properties l))) (skipn j (d_layers d)), Ok tt).
Proof.
  intros [H1 H2]. induction n as [|n IH]; intros j cs E; rewrite layer_loop_S, H1.
  - replace (Z.of_nat j <? Z.of_nat (length (d_layers d)))%Z with false by (symmetry; apply Z.ltb_ge; lia).
    rewrite skipn_all2 by lia. cbn [map]. now rewrite app_nil_r.
  - replace (Z.of_nat j <? Z.of_nat (length (d_layers d)))%Z with true by (symmetry; apply Z.ltb_lt; lia).
    assert (P : py_index (length (d_layers d)) (Z.of_nat j) = Some j).
    { apply py_index_spec. split; [lia|]. split; [now left|now intros]. }
    rewrite P. cbv zeta.
    rewrite (nth_skipn_cons (d_layers d) j (DevLayer 1 [])) by lia.
    set (l := nth j (d_layers d) (DevLayer 1 [])).
    assert (Hl : dl_numlayers l = 1%Z).
    { rewrite Forall_forall in H2. apply H2. unfold l. apply nth_In. lia. }
    unfold bindI. unfold emit. rewrite Hl. replace (Z.of_nat j + 1)%Z with (Z.of_nat (S j)) by lia.
    cbn beta iota. rewrite (IH (S j)) by lia. cbn [map]. now rewrite <- app_assoc.
Qed.

(** The value the solver must use for a property of a layer: the one of the material, or
    the default when the material has none (it raises ValueError). *)
Definition layer_value (dflt : string -> R) (l : layer) (k : string) (v : R) : Prop :=
  l_attr l k = Ok v \/ (l_attr l k = Err ValueError /\ v = dflt k).
(** The material row of a layer, in the order AddLayer reads it
    (DDmodel-current.f95:314-349). *)
Definition region_of (dflt : string -> R) (l : layer) (a : list R) : Prop :=
  exists gap chi mun mup nc nv tn tp eps brad ccn ccp na nd,
    layer_value dflt l "band_gap" gap /\ layer_value dflt l "electron_affinity" chi /\
    layer_value dflt l "electron_mobility" mun /\ layer_value dflt l "hole_mobility" mup /\
    layer_value dflt l "Nc" nc /\ layer_value dflt l "Nv" nv /\
    layer_value dflt l "electron_minority_lifetime" tn /\ layer_value dflt l "hole_minority_lifetime" tp /\
    layer_value dflt l "relative_permittivity" eps /\ layer_value dflt l "radiative_recombination" brad /\
    layer_value dflt l "electron_auger_recombination" ccn /\ layer_value dflt l "hole_auger_recombination" ccp /\
    layer_value dflt l "Na" na /\ layer_value dflt l "Nd" nd /\
    a = [l_width l; gap / q; chi / q; mun; mup; nc; nv; tn; tp; eps * vacuum_permittivity; brad; ccn; ccp; na; nd].

Lemma read_keys_ok dflt l ks : forall p, read_keys dflt l ks = Ok p ->
  exists vs, p = combine ks vs /\ Forall2 (layer_value dflt l) ks vs.
Proof.
  induction ks as [|k ks IH]; intros p; cbn [read_keys].
  - intros [= <-]. exists []. split; [reflexivity|constructor].
  - intros H.
    assert (X : exists v r, layer_value dflt l k v /\ read_keys dflt l ks = Ok r /\ p = (k, v) :: r).
    { destruct (l_attr l k) as [v|e] eqn:E; [|destruct e; try discriminate H]; cbn [bindR] in H;
        destruct (read_keys dflt l ks) as [r|]; try discriminate H; cbn [bindR] in H; injection H as <-.
      - exists v, r. split; [left; exact E|auto].
      - exists (dflt k), r. split; [right; auto|auto]. }
    destruct X as (v & r & Hv & Hr & ->). destruct (IH r Hr) as (vs & -> & F). exists (v :: vs). split; [reflexivity|now constructor].
Qed.
Lemma properties_region dflt l T p : get_layer_properties dflt l T = Ok p -> region_of dflt l (layer_args p).
Proof.
  unfold get_layer_properties. destruct (read_keys dflt l property_keys) as [r|] eqn:E; cbn [bindR]; [|discriminate].
  intros [= <-]. apply read_keys_ok in E as (vs & -> & F). unfold property_keys in F.
  repeat match goal with H : Forall2 _ (_ :: _) _ |- _ => inversion H; subst; clear H end.
  match goal with H : Forall2 _ [] _ |- _ => inversion H; subst; clear H end.
  unfold region_of. do 14 eexists. repeat (split; [eassumption|]). reflexivity.
Qed.
Lemma appended_ok dflt T ls ps : appended dflt T ls ps -> length ps = length ls ->
  Forall2 (fun l p => get_layer_properties dflt l T = Ok p) ls ps.
Proof. induction 1; simpl; intros E; try discriminate; constructor; auto. Qed.
Lemma Forall2_map_r {A B C} (P : A -> C -> Prop) (f : B -> C) la lb :
  Forall2 (fun a b => P a (f b)) la lb -> Forall2 P la (map f lb).
Proof. induction 1; simpl; constructor; auto. Qed.

Lemma process_ok dflt J T mesh o cs cs' u : process_structure dflt J T mesh o cs = (cs', Ok u) ->
  exists vs rows,
    Forall2 (fun fk v => lookup (snd fk) o = Some v) settings vs /\
    Forall2 (region_of dflt) (j_layers J) rows /\
    cs' = cs ++ map (fun fv => CSet (fst fv) (snd fv)) (combine (map fst settings) vs) ++ [CReset] ++ map CAddLayer rows ++
          [CFront (default 1000000 (j_sn J)) (default 1000000 (j_sp J)); CBack (default 1000000 (j_sn J)) (default 1000000 (j_sp J)); CInit mesh].
Proof.
  unfold process_structure. intros H. apply bind_inv in H as (u1 & c1 & H1 & H). apply set_all_ok in H1 as (vs & F & ->).
  cbv zeta in H. apply bind_inv in H as (u2 & c2 & H1 & H). apply lift_ok in H1 as [Hd ->].
  destruct u2.
  destruct (add_layers_spec dflt (j_layers J)
     {| d_T := T; d_numlayers := 0; d_layers := []; d_sn := default 1000000 (j_sn J); d_sp := default 1000000 (j_sp J) |}
     ltac:(split; [reflexivity|constructor])) as (C & _ & Hsn & Hsp & ps & A & B & D).
  fold (create_device dflt T J) in *. cbn [d_T d_sn d_sp d_layers map app] in *.
  apply D in Hd. apply (appended_ok dflt T _ _ A) in Hd.
  apply bind_inv in H as (u3 & c3 & H1 & H). apply emit_inv in H1 as ->.
  apply bind_inv in H as (u4 & c4 & H1 & H).
  change 0%Z with (Z.of_nat 0) in H1. rewrite layer_loop_ok in H1 by (assumption || lia). injection H1 as <- _.
  apply bind_inv in H as (u5 & c5 & H1 & H). apply emit_inv in H1 as ->.
  apply bind_inv in H as (u6 & c6 & H1 & H). apply emit_inv in H1 as ->.
  apply emit_inv in H as ->.
  exists vs, (map layer_args ps). split; [exact F|]. split.
  - apply Forall2_map_r. clear - Hd. induction Hd; constructor; [eapply properties_region; eassumption|assumption].
  - rewrite Hsn, Hsp. cbn [skipn]. rewrite <- B, !map_map. rewrite <- !app_assoc. reflexivity.
Qed.

Lemma regions_of_rows rows : forall s, f_regions (fold_left fstep (map CAddLayer rows) s) = f_regions s ++ rows /\
  f_var (fold_left fstep (map CAddLayer rows) s) = f_var s.
Proof.
  induction rows as [|r rows IH]; intros s; cbn [map fold_left]; [now rewrite app_nil_r|].
  destruct (IH (fstep s (CAddLayer r))) as [I1 I2]. rewrite I1, I2. cbn [fstep f_regions f_var]. now rewrite <- app_assoc.
Qed.
Lemma vars_of_sets names : forall vs s k, NoDup names -> length names = length vs ->
  f_var (fold_left fstep (map (fun fv => CSet (fst fv) (snd fv)) (combine names vs)) s) k
  = match lookup k (combine names vs) with Some v => Some v | None => f_var s k end.
Proof.
  induction names as [|n names IH]; intros [|v vs] s k Hnd Hl; try discriminate Hl; [reflexivity|].
  cbn [combine map fold_left fst snd]. inversion Hnd as [|? ? Hn Hnd']; subst. injection Hl as Hl. rewrite (IH vs) by assumption.
  unfold lookup at 2. cbn [find fst snd]. cbn [fstep f_var]. unfold upd. rewrite String.eqb_sym.
  destruct (String.eqb_spec n k) as [E|E].
  - assert (X : lookup k (combine names vs) = None).
    { subst k. clear - Hn. unfold lookup. revert vs. induction names as [|m names IH]; intros [|v vs]; try reflexivity.
      cbn [combine find fst]. destruct (String.eqb_spec m n) as [->|]; [elim Hn; now left|]. apply IH. intros H. apply Hn. now right. }
    rewrite X. reflexivity.
  - unfold lookup. destruct (find _ _); reflexivity.
Qed.
Lemma settings_nodup : NoDup (map fst settings).
Proof. simpl. repeat (apply NoDup_cons; [simpl; intuition discriminate|]). apply NoDup_nil. Qed.

(** The module after a successful equilibrium computation. *)
Lemma equilibrium_state dflt J o cs cs' u : equilibrium_pdd dflt J o cs = (cs', Ok u) ->
  exists vs rows, Forall2 (fun fk v => lookup (snd fk) o = Some v) settings vs /\ Forall2 (region_of dflt) (j_layers J) rows /\
    f_regions (fortran_after cs') = rows /\
    (forall k, f_var (fortran_after cs') k =
       if String.eqb k "gen" then Some (Num 0)
       else reset_vars (fun k => match lookup k (combine (map fst settings) vs) with Some v => Some v | None => f_var (fortran_after cs) k end) k) /\
    In (CFront (default 1000000 (j_sn J)) (default 1000000 (j_sp J))) cs' /\ In (CBack (default 1000000 (j_sn J)) (default 1000000 (j_sp J))) cs' /\
    (exists l, cs' = cs ++ l).
Proof.
  unfold equilibrium_pdd. destruct (clash _ _); [intros [= _ E]; discriminate E|]. intros H.
  apply bind_inv in H as (T & c1 & H1 & H). apply lift_ok in H1 as [_ ->]. cbv zeta in H.
  apply bind_inv in H as (u1 & c1 & H1 & H). apply bind_inv in H as (u2 & c2 & H2 & H). apply emit_inv in H2 as ->. apply emit_inv in H as ->.
  apply process_ok in H1 as (vs & rows & F & G & ->). exists vs, rows.
  split. { clear - F.
    assert (X : forall k v, In k (map snd settings) -> lookup k (without "meshpoints" (without "output_equilibrium" (without "T" o))) = Some v ->
       lookup k o = Some v).
    { intros k v Hk E. rewrite !lookup_without in E; [exact E| | |]; simpl in Hk; intuition (subst; discriminate). }
    assert (Y : forall l vs, (forall e, In e l -> In e settings) ->
       Forall2 (fun fk v => lookup (snd fk) (without "meshpoints" (without "output_equilibrium" (without "T" o))) = Some v) l vs ->
       Forall2 (fun fk v => lookup (snd fk) o = Some v) l vs).
    { clear - X. intros l vs Hin F. induction F as [|e v l vs E F IH]; constructor.
      - apply X; [|exact E]. apply in_map, Hin. now left.
      - apply IH. intros e' He. apply Hin. now right. }
    apply Y; [auto|exact F]. }
  split; [exact G|].
  assert (L : length (map fst settings) = length vs).
  { rewrite map_length. clear - F. induction F; simpl; congruence. }
  rewrite !fortran_after_app. cbn [fold_left]. rewrite !fold_left_app. cbn [fold_left].
  set (s1 := fold_left fstep (map (fun fv => CSet (fst fv) (snd fv)) (combine (map fst settings) vs)) (fortran_after cs)).
  destruct (regions_of_rows rows (fstep s1 CReset)) as [R1 R2].
  split. { transitivity (f_regions (fold_left fstep (map CAddLayer rows) (fstep s1 CReset))); [reflexivity|]. rewrite R1. reflexivity. }
  split. { intros k.
    transitivity (upd (f_var (fold_left fstep (map CAddLayer rows) (fstep s1 CReset))) "gen" (Some (Num 0)) k); [reflexivity|].
    unfold upd at 1. destruct (String.eqb k "gen"); [reflexivity|]. rewrite R2. cbn [fstep f_var].
    unfold reset_vars, upd. unfold s1. rewrite vars_of_sets by (exact settings_nodup || exact L). reflexivity. }
  split; [|split].
  - rewrite !in_app_iff. cbn [In]. auto 20.
  - rewrite !in_app_iff. cbn [In]. auto 20.
  - eexists. rewrite <- !app_assoc. reflexivity.
Qed.

(** Property C110.  A successful equilibrium computation leaves one region in the solver
    for every layer of the junction, in order, with the width of the layer and the
    properties of its material (the default where it has none); both contacts get the
    junction's surface recombination velocities, or 1e6. *)
Theorem C110_layers dflt J o cs cs' : equilibrium_pdd dflt J o cs = (cs', Ok tt) ->
  Forall2 (region_of dflt) (j_layers J) (f_regions (fortran_after cs')) /\
  (forall sn sp, (j_sn J = Some sn \/ j_sn J = None /\ sn = 1000000) -> (j_sp J = Some sp \/ j_sp J = None /\ sp = 1000000) ->
     In (CFront sn sp) cs' /\ In (CBack sn sp) cs').
Proof.
  intros H. apply equilibrium_state in H as (vs & rows & _ & G & -> & _ & H1 & H2 & _). split; [exact G|].
  intros sn sp Hn Hp. assert (default 1000000 (j_sn J) = sn) as En by (destruct Hn as [-> |[-> ->]]; reflexivity).
  assert (default 1000000 (j_sp J) = sp) as Ep by (destruct Hp as [-> |[-> ->]]; reflexivity). rewrite En, Ep in *. auto.
Qed.

(** Property C109, what holds: the mesh and recombination options given are the ones in
    force once the device is set up (the generation switch is set by each solver). *)
Theorem C109_options_partial dflt J o cs cs' f k : equilibrium_pdd dflt J o cs = (cs', Ok tt) ->
  In (f, k) [("coarse", "coarse"); ("fine", "fine"); ("ultrafine", "ultrafine"); ("growth", "growth_rate");
             ("srh", "srh"); ("rad", "rad"); ("aug", "aug"); ("sur", "sur")] ->
  exists v, lookup k o = Some v /\ f_var (fortran_after cs') f = Some v.
Proof.
  intros H Hin. apply equilibrium_state in H as (vs & rows & F & _ & _ & V & _).
  unfold settings in F. repeat match goal with H : Forall2 _ (_ :: _) _ |- _ => inversion H; subst; clear H end.
  match goal with H : Forall2 _ [] _ |- _ => inversion H; subst; clear H end. cbn [snd] in *.
  simpl in Hin. repeat (destruct Hin as [Hin|Hin]; [injection Hin as <- <-; eexists; split; [eassumption|]; rewrite V; reflexivity|]).
  destruct Hin.
Qed.
(** What does not: the convergence options are set before the module is reset, and the
    reset puts back its own values, so whatever was asked for, the solver runs with a
    clamp of 20, a relative tolerance of 1e-6, an absolute one of 3.16e-17 and at most 40
    iterations. *)
Theorem C109_convergence_ignored dflt J o cs cs' : equilibrium_pdd dflt J o cs = (cs', Ok tt) ->
  f_var (fortran_after cs') "nitermax" = Some (Num 40) /\ f_var (fortran_after cs') "clamp" = Some (Num 20) /\
  f_var (fortran_after cs') "rtol" = Some (Num (1 / 10 ^ 6)) /\
  f_var (fortran_after cs') "atol" = Some (Num (31622776601683796 / 10 ^ 33)).
Proof. intros H. apply equilibrium_state in H as (vs & rows & _ & _ & _ & V & _). rewrite !V. repeat split. Qed.

(** The options of DriftDiffusionUtilities.py:37-63. *)
Definition pdd_options : kwargs :=
  [("meshpoints", Num (-400)); ("growth_rate", Num (7 / 10)); ("coarse", Num (20 / 10 ^ 9)); ("fine", Num (1 / 10 ^ 9));
   ("ultrafine", Num (2 / 10 ^ 10)); ("clamp", Num 20); ("nitermax", Num 100); ("ATol", Num (1 / 10 ^ 14)); ("RTol", Num (1 / 10 ^ 6));
   ("srh", Num 1); ("rad", Num 1); ("aug", Num 0); ("sur", Num 1); ("gen", Num 0); ("output_equilibrium", Num 1);
   ("output_sc", Num 1); ("output_iv", Num 1); ("output_qe", Num 1)].
Definition diode_junction : junction := Junction [plain 1; plain 2] (Some 5) None None.
Lemma equilibrium_case : exists cs', equilibrium_pdd (fun _ => 7) diode_junction pdd_options [] = (cs', Ok tt).
Proof.
  exists (fst (equilibrium_pdd (fun _ => 7) diode_junction pdd_options [])).
  assert (H : snd (equilibrium_pdd (fun _ => 7) diode_junction pdd_options []) = Ok tt) by (vm_compute; reflexivity).
  destruct (equilibrium_pdd (fun _ => 7) diode_junction pdd_options []) as [a b]. cbn [fst snd] in *. now rewrite H.
Qed.
Example C110_case :
  let cs' := fst (equilibrium_pdd (fun _ => 7) diode_junction pdd_options []) in
  snd (equilibrium_pdd (fun _ => 7) diode_junction pdd_options []) = Ok tt /\
  map (fun a => nth 0 a 0) (f_regions (fortran_after cs')) = [1; 2] /\ map (fun a => nth 14 a 0) (f_regions (fortran_after cs')) = [7; 7].
Proof. cbv zeta. repeat split; vm_compute; reflexivity. Qed.
Theorem C109_convergence_refuted : exists dflt J o cs cs' v,
  equilibrium_pdd dflt J o cs = (cs', Ok tt) /\ lookup "nitermax" o = Some v /\ f_var (fortran_after cs') "nitermax" <> Some v.
Proof.
  destruct equilibrium_case as [cs' E]. exists (fun _ => 7), diode_junction, pdd_options, [], cs', (Num 100). split; [exact E|].
  split; [reflexivity|]. destruct (C109_convergence_ignored _ _ _ _ _ E) as [-> _]. intros [= H]. lra.
Qed.
Example C109_case :
  f_var (fortran_after (fst (equilibrium_pdd (fun _ => 7) diode_junction pdd_options []))) "fine" = Some (Num (1 / 10 ^ 9)).
Proof. vm_compute. reflexivity. Qed.
