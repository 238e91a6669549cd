(** C175: options of the calculated solar spectra. *)
From Coq Require Import Reals ZArith QArith Ascii String List Arith Bool Lia Lra.
From Verif Require Import Common InterpModel InterpProps NpModel SmartsModel SmartsProps SmartsProps2.
From Coq Require Import List.
Import ListNotations.
Open Scope string_scope.
Open Scope list_scope.

(** * Dictionaries *)
Section Dict.
Context {A : Type}.
Implicit Types (o d : list (string * A)).
Lemma get_put o k v k' : get (put o k v) k' = if String.eqb k k' then Some v else get o k'.
Proof. induction o as [|[a x] o IH]; cbn [put get]; [reflexivity|].
  destruct (String.eqb_spec a k) as [->|Hn]; cbn [get].
  - destruct (String.eqb k k'); reflexivity.
  - rewrite IH. destruct (String.eqb_spec a k') as [->|Hn']; [|reflexivity].
    destruct (String.eqb_spec k k') as [->|_]; [contradiction|reflexivity]. Qed.
Lemma get_in o k : get o k <> None <-> In k (map fst o).
Proof. induction o as [|[a x] o IH]; cbn [get map fst In]; [split; [intro H; contradiction|intro H; destruct H]|].
  destruct (String.eqb_spec a k) as [->|Hn]; [split; [intros _; left; reflexivity|discriminate]|].
  rewrite IH. split; [intro H; right; exact H|intros [H|H]; [contradiction|exact H]]. Qed.
Lemma get_none o k : get o k = None <-> ~ In k (map fst o).
Proof. rewrite <- get_in. destruct (get o k); split; intro H; try discriminate; try reflexivity.
  - exfalso. apply H. discriminate.
  - intro Hc. apply Hc. reflexivity. Qed.
Lemma put_keys o k v : map fst (put o k v) = map fst o \/ (~ In k (map fst o) /\ map fst (put o k v) = map fst o ++ [k]).
Proof. induction o as [|[a x] o IH]; cbn [put map fst app]; [right; split; [intro H; destruct H|reflexivity]|].
  destruct (String.eqb_spec a k) as [->|Hn]; cbn [map fst]; [left; reflexivity|].
  destruct IH as [IH|[H1 IH]]; [left; rewrite IH; reflexivity|right].
  split; [intros [H|H]; contradiction|rewrite IH; reflexivity]. Qed.
Lemma put_nodup o k v : NoDup (map fst o) -> NoDup (map fst (put o k v)).
Proof. intro H. destruct (put_keys o k v) as [->|[Hn ->]]; [exact H|].
  apply NoDup_rev in H. rewrite <- (rev_involutive (map fst o ++ [k])). apply NoDup_rev. rewrite rev_app_distr.
  constructor; [rewrite <- in_rev; exact Hn|exact H]. Qed.
Lemma get_update o d : NoDup (map fst d) ->
  forall k, get (update o d) k = match get d k with Some v => Some v | None => get o k end.
Proof. unfold update. revert o. induction d as [|[a x] d IH]; intros o H k; [reflexivity|].
  cbn [map fst] in H. inversion H as [|? ? Hn Hd]; subst. cbn [fold_left fst snd get]. rewrite (IH _ Hd), get_put.
  destruct (String.eqb_spec a k) as [->|_]; [|reflexivity].
  rewrite (proj2 (get_none d k) Hn). reflexivity. Qed.
Lemma update_nodup o d : NoDup (map fst o) -> NoDup (map fst (update o d)).
Proof. unfold update. revert o. induction d as [|[a x] d IH]; intros o H; [exact H|]. apply IH, put_nodup, H. Qed.
Lemma get_override d o : NoDup (map fst o) ->
  forall k, get (override d o) k
            = match get d k with None => None | Some v => match get o k with Some w => Some w | None => Some v end end.
Proof. unfold override. revert d. induction o as [|[a x] o IH]; intros d H k.
  - cbn [fold_left get]. destruct (get d k); reflexivity.
  - cbn [map fst] in H. inversion H as [|? ? Hn Hd]; subst. cbn [fold_left fst snd get].
    rewrite (IH _ Hd). destruct (get d a) as [y|] eqn:E.
    + rewrite get_put. destruct (String.eqb_spec a k) as [->|_]; [|reflexivity].
      rewrite (proj2 (get_none o k) Hn), E. reflexivity.
    + destruct (String.eqb_spec a k) as [->|_]; [rewrite E; reflexivity|reflexivity]. Qed.
Lemma override_nodup d o : NoDup (map fst d) -> NoDup (map fst (override d o)).
Proof. unfold override. revert d. induction o as [|[a x] o IH]; intros d H; [exact H|].
  cbn [fold_left fst snd]. apply IH. destruct (get d a); [apply put_nodup|]; exact H. Qed.
End Dict.

(** The option given if there is one, the default one otherwise; options without a default are
    kept as well. *)
Theorem C175_merge {A} (default options : list (string * A)) k :
  NoDup (map fst default) -> NoDup (map fst options) ->
  get (merged default options) k = match get options k with Some v => Some v | None => get default k end.
Proof. intros Hd Ho. unfold merged. rewrite (get_update _ _ (override_nodup _ _ Hd)), (get_override _ _ Ho).
  destruct (get default k), (get options k); reflexivity. Qed.

(** * Only the values of the options count *)
Definition same (o o' : sdict) : Prop := forall k, get o k = get o' k.
Lemma item_same o o' : same o o' -> forall k, item o k = item o' k.
Proof. intros H k. unfold item. rewrite (H k). reflexivity. Qed.
Lemma format_same o o' : same o o' -> forall s f, format o s f = format o' s f.
Proof. intros H. induction s as [|a s IH]; intros [n|]; cbn [format]; try reflexivity.
  - rewrite !IH, (item_same o o' H). reflexivity.
  - rewrite !IH. reflexivity. Qed.
Lemma contents_same o o' : same o o' -> contents o = contents o'.
Proof. intro H. assert (I := item_same o o' H).
  assert (E : forall k z, equals o k z = equals o' k z) by (intros; unfold equals; rewrite I; reflexivity).
  assert (W : forall k z l, when o k z l = when o' k z l) by (intros; unfold when; rewrite E; reflexivity).
  assert (P : forall k l, pick o k l = pick o' k l) by (intros; unfold pick; rewrite I; reflexivity).
  assert (G : forall k z, at_least o k z = at_least o' k z) by (intros; unfold at_least; rewrite I; reflexivity).
  unfold contents. cbn [appended].
  unfold seg2, seg3, seg4, seg5, seg6, seg8, seg9, seg10, seg10b, seg12, seg13, seg14, seg17.
  rewrite !P, !W, !E, !G, !I. reflexivity. Qed.
Lemma build_same o o' : same o o' -> build_smarts_file o = build_smarts_file o'.
Proof. intro H. unfold build_smarts_file. rewrite (contents_same o o' H).
  destruct (contents o') as [l|e]; [cbn [bindR]; rewrite (format_same o o' H)|]; reflexivity. Qed.
Lemma default_nodup : NoDup (map fst default_smarts).
Proof. assert (H : forall l : list string, (fix nd l := match l with [] => true | a :: r => negb (existsb (String.eqb a) r) && nd r end) l = true -> NoDup l).
  { induction l as [|a l IH]; intro H; [constructor|]. apply andb_true_iff in H. destruct H as [H1 H2].
    constructor; [|apply IH; exact H2]. intro Hi. apply negb_true_iff in H1.
    assert (existsb (String.eqb a) l = true) by (apply existsb_exists; exists a; split; [exact Hi|apply String.eqb_refl]).
    congruence. }
  apply H. vm_compute. reflexivity. Qed.
(** The options of a light source made with [kw]. *)
Definition option_of (kw : sdict) (k : string) : option sval :=
  match get kw k with
  | Some v => Some v
  | None => if String.eqb k "output" then Some (vt "Global horizontal") else get default_smarts k
  end.
Lemma options_get kw : NoDup (map fst kw) -> forall k, get (smarts_options kw) k = option_of kw k.
Proof. intros H k. unfold smarts_options, option_of. cbv zeta.
  assert (M := fun k => C175_merge default_smarts kw k default_nodup H).
  assert (D : get default_smarts "output" = None) by reflexivity.
  destruct (get (merged default_smarts kw) "output") as [v|] eqn:E.
  - rewrite M in *. rewrite D in E. destruct (get kw k) as [w|] eqn:Ek; [reflexivity|].
    destruct (String.eqb_spec k "output") as [->|_]; [|reflexivity]. rewrite Ek in E. discriminate E.
  - rewrite get_put, !M in *. rewrite D in E. destruct (String.eqb_spec "output" k) as [<-|Hn].
    + destruct (get kw "output") as [w|]; [discriminate E|reflexivity].
    + destruct (String.eqb_spec k "output") as [->|_]; [contradiction|reflexivity]. Qed.
Lemma options_nodup kw : NoDup (map fst kw) -> NoDup (map fst (smarts_options kw)).
Proof. intro H. unfold smarts_options. cbv zeta.
  assert (M : NoDup (map fst (merged default_smarts kw))) by (apply update_nodup; exact H).
  destruct (get (merged default_smarts kw) "output"); [exact M|apply put_nodup; exact M]. Qed.

Section Program.
Context (installed : bool) (run : string -> ran) (load : list string -> res (list (list R))).
Notation source := (smarts_source installed run load).
Lemma spectrum_same con o o' : same o o' ->
  smarts_spectrum installed run load con o = smarts_spectrum installed run load con o'.
Proof. intro H. unfold smarts_spectrum, calculate. rewrite (H "output"), (build_same o o' H). reflexivity. Qed.
(** The light source keeps every option, the ones given and the default ones. *)
Theorem C175_options con kw k : NoDup (map fst kw) -> get (snd (source con kw)) k = option_of kw k.
Proof. intro H. exact (options_get kw H k). Qed.
(** Changing options in a call is making the light source with them. *)
Theorem C175_update con kw new : NoDup (map fst kw) -> NoDup (map fst new) ->
  (forall k, In k (map fst new) -> option_of kw k <> None) ->
  fst (smarts_update installed run load con (snd (source con kw)) new) = fst (source con (update kw new))
  /\ forall k, get (snd (smarts_update installed run load con (snd (source con kw)) new)) k
               = get (snd (source con (update kw new))) k.
Proof. intros Hk Hn Hin.
  assert (No : NoDup (map fst (override (smarts_options kw) new))) by (apply override_nodup, options_nodup, Hk).
  assert (Hs : same (smarts_options (override (smarts_options kw) new)) (smarts_options (update kw new))).
  { intro k. rewrite (options_get _ No), (options_get _ (update_nodup kw new Hk)). unfold option_of at 1 2.
    rewrite (get_override _ _ Hn), (get_update _ _ Hn), (options_get kw Hk).
    assert (Hi := Hin k). rewrite <- get_in in Hi. unfold option_of in *.
    destruct (get new k) as [w|].
    - specialize (Hi ltac:(discriminate)). destruct (get kw k) as [v|]; [reflexivity|].
      destruct (String.eqb k "output"); [reflexivity|]. destruct (get default_smarts k); [reflexivity|contradiction].
    - destruct (get kw k) as [v|]; [reflexivity|]. destruct (String.eqb k "output"); [reflexivity|].
      destruct (get default_smarts k); reflexivity. }
  unfold smarts_update, smarts_source. cbv zeta. cbn [fst snd]. split; [apply spectrum_same; exact Hs|exact Hs]. Qed.
(** The columns of the outputs, but for the extraterrestrial one, which has no column of its own
    (see [C175_outputs_refuted]). *)
Definition column_of (name : string) : option nat :=
  if String.eqb name "True direct" then Some 2%nat
  else if String.eqb name "Experimental direct" then Some 3%nat
  else if String.eqb name "Global horizontal" then Some 4%nat
  else if String.eqb name "Global tilted" then Some 5%nat else None.
Lemma column_outputs name i : column_of name = Some i -> get outputs name = Some i.
Proof. unfold column_of, outputs. cbn [get]. rewrite !(String.eqb_sym name).
  destruct (String.eqb_spec "True direct" name) as [<-|_]; [intro H; exact H|].
  destruct (String.eqb_spec "Experimental direct" name) as [<-|_]; [intro H; exact H|].
  destruct (String.eqb_spec "Global horizontal" name) as [<-|_]; [intro H; exact H|].
  destruct (String.eqb_spec "Global tilted" name) as [<-|_]; [intro H; exact H|].
  intro H; discriminate H. Qed.
(** The spectrum is that of the column of the output asked for: its values at the wavelengths of
    the first column, nothing outside, and its power. *)
Theorem C175_spectrum_partial con kw f lines d wl y v i : NoDup (map fst kw) -> installed = true ->
  build_smarts_file (smarts_options kw) = Ok f -> run f = Ran (Some lines) -> load (skipper lines) = Ok d ->
  option_of kw "output" = Some v -> column_of (v_txt v) = Some i ->
  nth_error d 0 = Some wl -> nth_error d i = Some y ->
  increasing wl -> (2 <= length wl)%nat -> length y = length wl ->
  exists s, fst (source con kw) = SBuilt s wl (np_trapz y wl * con)%R
    /\ (forall j, (j < length wl)%nat -> s (nth j wl 0%R) = nth j y 0%R)
    /\ (forall x, (x < nth 0 wl 0 \/ nth (length wl - 1) wl 0 < x)%R -> s x = 0%R).
Proof. intros Hk Hi Hb Hr Hl Hv Hc Hw Hy Hinc Hlen Hly. exists (scipy_interp wl y 0%R 0%R). split.
  - unfold smarts_source. cbv zeta. cbn [fst]. unfold smarts_spectrum. rewrite (options_get kw Hk), Hv.
    rewrite (column_outputs _ _ Hc). unfold calculate. rewrite Hi, Hb, Hr, Hl. destruct d as [|d0 d]; [discriminate Hw|].
    rewrite Hw, Hy. reflexivity.
  - split.
    + intros j Hj. apply scipy_interp_node; assumption.
    + intros x Hx. unfold scipy_interp. destruct (Rlt_dec _ _); [reflexivity|].
      destruct (Rlt_dec _ _); [reflexivity|]. exfalso. lra. Qed.
(** An output that SMARTS does not have, or an option that a card needs and that is missing: a
    message and no spectrum. *)
Theorem C175_unknown con kw v : NoDup (map fst kw) -> get kw "output" = Some v ->
  ~ In (v_txt v) ["Extraterrestial"; "True direct"; "Experimental direct"; "Global horizontal"; "Global tilted"] ->
  fst (source con kw) = SPrinted.
Proof. intros Hk Hv Hn. unfold smarts_source. cbv zeta. cbn [fst]. unfold smarts_spectrum.
  rewrite (options_get kw Hk). unfold option_of. rewrite Hv.
  rewrite (proj2 (get_none outputs (v_txt v))); [reflexivity|]. exact Hn. Qed.
Theorem C175_missing con kw k : NoDup (map fst kw) -> installed = true -> flags_ok (smarts_options kw) ->
  In k (needed (smarts_options kw)) -> option_of kw k = None -> fst (source con kw) = SPrinted.
Proof. intros Hk Hi Hf Hn Ho. unfold smarts_source. cbv zeta. cbn [fst]. unfold smarts_spectrum, calculate.
  rewrite Hi, (C174_missing (smarts_options kw) k Hf Hn); [|unfold given; rewrite (options_get kw Hk), Ho; intro H; exact (H eq_refl)].
  destruct (get (smarts_options kw) "output") as [v|]; [|reflexivity]. destruct (get outputs (v_txt v)); reflexivity. Qed.
(** A program that complains or leaves no data, and one that is not there, are errors. *)
Theorem C175_fails con kw v i : NoDup (map fst kw) -> option_of kw "output" = Some v -> column_of (v_txt v) = Some i ->
  (installed = false -> fst (source con kw) = SNotFound)
  /\ (installed = true -> forall f, build_smarts_file (smarts_options kw) = Ok f ->
      run f = Complained \/ run f = Ran None
      \/ (exists lines, run f = Ran (Some lines) /\ (load (skipper lines) = Ok [] \/ exists e, load (skipper lines) = Err e)) ->
      fst (source con kw) = SRaised ValueError).
Proof. intros Hk Hv Hc. unfold smarts_source. cbv zeta. cbn [fst]. unfold smarts_spectrum.
  rewrite (options_get kw Hk), Hv, (column_outputs _ _ Hc). unfold calculate. split.
  - intros ->. reflexivity.
  - intros -> f Hf. rewrite Hf. intros [->|[->|[lines [-> [->|[e ->]]]]]]; reflexivity. Qed.
End Program.

(** The program's rows: the lines with three blanks but for the two of the header. *)
Lemma prefix_spec p s : String.prefix p s = true <-> exists b, s = (p ++ b)%string.
Proof. revert s. induction p as [|a p IH]; intro s.
  - split; [intros _; exists s; reflexivity|intros _; destruct s; reflexivity].
  - destruct s as [|x s]; cbn [String.prefix String.append].
    + split; [intro H; discriminate H|intros [b H]; discriminate H].
    + destruct (ascii_dec a x) as [<-|Hn].
      * rewrite IH. split; intros [b H]; exists b; [rewrite H; reflexivity|inversion H; reflexivity].
      * split; [intro H; discriminate H|intros [b H]; inversion H; contradiction (Hn (eq_sym H1))]. Qed.
Lemma has_gap_spec s : has_gap s = true <-> exists a b, s = (a ++ "   " ++ b)%string.
Proof. induction s as [|x s IH].
  - split; [intro H; discriminate H|]. intros [a [b H]]. destruct a; discriminate H.
  - change (has_gap (String x s)) with (String.prefix "   " (String x s) || has_gap s).
    rewrite orb_true_iff, prefix_spec, IH. split.
    + intros [[b H]|[a [b ->]]]; [exists "", b; exact H|exists (String x a), b; reflexivity].
    + intros [[|y a] [b H]]; [left; exists b; exact H|right; exists a, b].
      change (String y a ++ "   " ++ b)%string with (String y (a ++ "   " ++ b)) in H. inversion H. reflexivity. Qed.
Definition gap_line (s : string) : Prop := exists a b, s = (a ++ "   " ++ b)%string.
Lemma filter_all l : Forall gap_line l -> filter has_gap l = l.
Proof. induction 1 as [|s l H _ IH]; [reflexivity|]. cbn [filter]. rewrite (proj2 (has_gap_spec s) H), IH. reflexivity. Qed.
Lemma filter_no l : Forall (fun s => ~ gap_line s) l -> filter has_gap l = [].
Proof. induction 1 as [|s l H _ IH]; [reflexivity|]. cbn [filter].
  destruct (has_gap s) eqn:E; [exfalso; apply H, has_gap_spec, E|exact IH]. Qed.
Theorem C175_rows c0 h1 c1 h2 c2 rows : Forall (fun s => ~ gap_line s) c0 -> Forall (fun s => ~ gap_line s) c1 ->
  Forall (fun s => ~ gap_line s) c2 -> gap_line h1 -> gap_line h2 -> Forall gap_line rows ->
  skipper (c0 ++ h1 :: c1 ++ h2 :: c2 ++ rows) = rows.
Proof. intros H0 H1 H2 G1 G2 Hr. unfold skipper. rewrite filter_app, (filter_no _ H0). cbn [app filter].
  rewrite (proj2 (has_gap_spec h1) G1), filter_app, (filter_no _ H1). cbn [app filter].
  rewrite (proj2 (has_gap_spec h2) G2), filter_app, (filter_no _ H2), (filter_all _ Hr). reflexivity. Qed.

(** The SPECTRAL2 source is that of the merged options: the irradiance at the wavelengths,
    nothing outside, its power. *)
Theorem C175_spectral2 {A} (default : list (string * A)) calc con kw :
  NoDup (map fst default) -> NoDup (map fst kw) ->
  let o := snd (spectral2_source default calc con kw) in
  let wl := fst (calc o) in let y := snd (calc o) in
  (forall k, get o k = match get kw k with Some v => Some v | None => get default k end)
  /\ (increasing wl -> (2 <= length wl)%nat -> exists s,
      fst (spectral2_source default calc con kw) = SBuilt s wl (np_trapz y wl * con)%R
      /\ (forall j, (j < length wl)%nat -> s (nth j wl 0%R) = nth j y 0%R)
      /\ (forall x, (x < nth 0 wl 0 \/ nth (length wl - 1) wl 0 < x)%R -> s x = 0%R)).
Proof. intros Hd Hk o wl y. split; [intro k; exact (C175_merge default kw k Hd Hk)|].
  intros Hinc Hlen. exists (scipy_interp wl y 0%R 0%R). split; [reflexivity|]. split.
  - intros j Hj. apply scipy_interp_node; assumption.
  - intros x Hx. unfold scipy_interp. destruct (Rlt_dec _ _); [reflexivity|].
    destruct (Rlt_dec _ _); [reflexivity|]. exfalso. lra. Qed.

(** * Cases *)
Definition six : list (list R) := [[1; 2]; [3; 4]; [5; 6]; [7; 8]; [9; 10]; [11; 12]]%R.
Definition a_run (_ : string) : ran := Ran (Some []).
Definition a_load (_ : list string) : res (list (list R)) := Ok six.
Lemma six_spectrum con kw name i y : is_ok (build_smarts_file (smarts_options kw)) = true -> NoDup (map fst kw) ->
  option_of kw "output" = Some (vt name) -> get outputs name = Some i -> nth_error six i = Some y ->
  fst (smarts_source true a_run a_load con kw) = SBuilt (scipy_interp [1; 2]%R y 0%R 0%R) [1; 2]%R (np_trapz y [1; 2]%R * con)%R.
Proof. intros Hb Hk Hv Ho Hy. unfold smarts_source. cbv zeta. cbn [fst]. unfold smarts_spectrum.
  rewrite (options_get kw Hk), Hv. cbn [v_txt vt]. rewrite Ho. unfold calculate.
  destruct (build_smarts_file (smarts_options kw)) as [f|e]; [|discriminate Hb].
  unfold a_run, a_load, six in *. cbv beta iota. rewrite Hy. reflexivity. Qed.
Lemma single_nodup (k : string) (v : sval) : NoDup (map fst [(k, v)]).
Proof. constructor; [intro H; destruct H|constructor]. Qed.
Example ex_C175_spectrum con : exists s,
  fst (smarts_source true a_run a_load con [("output", vt "Global tilted"); ("TAU5", vf (1#10) "0.1")])
  = SBuilt s [1; 2]%R (np_trapz [11; 12]%R [1; 2]%R * con)%R
  /\ s 1%R = 11%R /\ s 2%R = 12%R /\ s 3%R = 0%R.
Proof. assert (N : NoDup (map fst [("output", vt "Global tilted"); ("TAU5", vf (1#10) "0.1")])).
  { constructor; [|apply single_nodup]. intros [H|H]; [discriminate H|destruct H]. }
  destruct (build_smarts_file (smarts_options [("output", vt "Global tilted"); ("TAU5", vf (1#10) "0.1")])) as [f|e] eqn:E;
    [|exfalso; vm_compute in E; discriminate E].
  destruct (C175_spectrum_partial true a_run a_load con _ f [] six [1; 2]%R [11; 12]%R (vt "Global tilted") 5 N eq_refl E
    eq_refl eq_refl eq_refl eq_refl eq_refl eq_refl) as [s [H1 [H2 H3]]].
  - intros i j Hij. cbn [length] in Hij. destruct i as [|[|i]], j as [|[|j]]; cbn [nth]; try lia; try lra.
  - cbn [length]. lia.
  - reflexivity.
  - exists s. split; [exact H1|]. split; [exact (H2 0%nat ltac:(cbn [length]; lia))|].
    split; [exact (H2 1%nat ltac:(cbn [length]; lia))|]. apply H3. right. cbn [length nth Nat.sub]. lra. Qed.
Example ex_C175_update con :
  fst (smarts_update true a_run a_load con (snd (smarts_source true a_run a_load con [])) [("ISPR", vi 0 "0")])
  = fst (smarts_source true a_run a_load con [("ISPR", vi 0 "0")]).
Proof. apply (C175_update true a_run a_load con [] [("ISPR", vi 0 "0")]); [constructor|apply single_nodup|].
  intros k [<-|H]; [discriminate|destruct H]. Qed.
Example ex_C175_unknown con : fst (smarts_source true a_run a_load con [("output", vt "Diffuse")]) = SPrinted.
Proof. apply (C175_unknown true a_run a_load con _ (vt "Diffuse")); [apply single_nodup|reflexivity|].
  cbn. intros H. repeat destruct H as [H|H]; try discriminate H. destruct H. Qed.
(** A user-defined aerosol without its coefficients. *)
Example ex_C175_missing con : fst (smarts_source true a_run a_load con [("AEROS", vt "USER")]) = SPrinted.
Proof. apply (C175_missing true a_run a_load con _ "GG"); [apply single_nodup|reflexivity| | |reflexivity].
  - unfold flags_ok, selects. repeat apply conj.
    + exists 1%Z. split; [reflexivity|lia].
    + exists 1%Z. split; [reflexivity|lia].
    + exists 0%Z. split; [reflexivity|lia].
    + exists 3%Z. split; [reflexivity|lia].
    + discriminate.
  - apply (needed_in _ (Text "AEROS" "USER", line ["ALPHA1"; "ALPHA2"; "OMEGL"; "GG"] "8a")); [|reflexivity|cbn; tauto].
    unfold table, t2, t3, t4, t5, t6, t8; cbn [app In]; tauto. Qed.
Example ex_C175_fails con : fst (smarts_source true (fun _ => Complained) a_load con []) = SRaised ValueError.
Proof. destruct (build_smarts_file (smarts_options [])) as [f|e] eqn:E; [|exfalso; vm_compute in E; discriminate E].
  exact (proj2 (C175_fails true (fun _ => Complained) a_load con [] (vt "Global horizontal") 4 (NoDup_nil _) eq_refl eq_refl)
    eq_refl f E (or_introl eq_refl)). Qed.
Example ex_C175_rows : skipper ["SMARTS"; "Wvlgth   Direct"; "nm   W/m2"; "300   0.1"; "302   0.2"] = ["300   0.1"; "302   0.2"].
Proof. reflexivity. Qed.
(** Two outputs of different names have the same column 2, so that asking for the extraterrestrial
    spectrum gives the direct one, whatever is in column 1. *)
Theorem C175_outputs_refuted : exists run load d kw kw' con,
  (forall l, load l = Ok d) /\ nth_error d 1 <> nth_error d 2
  /\ option_of kw "output" = Some (vt "Extraterrestial") /\ option_of kw' "output" = Some (vt "True direct")
  /\ exists s p, fst (smarts_source true run load con kw) = SBuilt s [1; 2]%R p
     /\ fst (smarts_source true run load con kw') = SBuilt s [1; 2]%R p /\ s 1%R = 5%R.
Proof. exists a_run, a_load, six, [("output", vt "Extraterrestial")], [("output", vt "True direct")], 1%R.
  split; [reflexivity|]. split; [intro H; cbn in H; injection H; intros; lra|]. split; [reflexivity|]. split; [reflexivity|].
  exists (scipy_interp [1; 2]%R [5; 6]%R 0%R 0%R), (np_trapz [5; 6]%R [1; 2]%R * 1)%R. split; [|split].
  - apply (six_spectrum 1 _ "Extraterrestial" 2); try reflexivity; apply single_nodup.
  - apply (six_spectrum 1 _ "True direct" 2); try reflexivity; apply single_nodup.
  - refine (scipy_interp_node [1; 2]%R [5; 6]%R 0%R 0%R 0 _ _ _).
    + intros i j Hij. cbn [length] in Hij. destruct i as [|[|i]], j as [|[|j]]; cbn [nth]; try lia; try lra.
    + cbn [length]. lia.
    + cbn [length]. lia. Qed.
