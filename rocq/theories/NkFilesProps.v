(** Property C194 about searching and exporting the refractiveindex.info database. *)
From Coq Require Import Reals Ascii String List Arith Bool Lra Lia Permutation.
From Verif Require Import Common GraphModel MatTextModel MatTextProps CppbModel RiiModel RiiProps NkFilesModel NpModel.
From Coq Require Import List.
Import ListNotations.
Open Scope R_scope.
Open Scope list_scope.

(** * Search *)
(** The same text but for the case of letters, a part of a text, and terms without wildcards. *)
Definition same_text (a b : string) : Prop := map_text lower_char a = map_text lower_char b.
Definition part_of (a b : string) : Prop := exists x m y, b = x +++ m +++ y /\ same_text a m.
Fixpoint plain_term (s : string) : Prop :=
  match s with EmptyString => True | String a r => a <> "%"%char /\ a <> "_"%char /\ plain_term r end.
Lemma like_plain : forall p s, plain_term p -> like p s = true <-> same_text p s.
Proof.
  unfold same_text. induction p as [|a p IH]; intros s H.
  - destruct s; cbn; split; congruence.
  - destruct H as (H1 & H2 & H3). cbn [like]. apply Ascii.eqb_neq in H1, H2. rewrite H1. destruct s as [|b s]; [cbn; split; congruence|].
    rewrite H2. cbn [orb map_text]. rewrite andb_true_iff, Ascii.eqb_eq, IH by exact H3. split; [intros [-> ->]; reflexivity|intros E; injection E as E1 E2; now split].
Qed.
Lemma like_percent p s : like (String "%" p) s = true <-> exists x y, s = x +++ y /\ like p y = true.
Proof.
  cbn [like]. change (Ascii.eqb "%" "%") with true. cbv iota. induction s as [|b s IH].
  - rewrite orb_false_r. split; [intros H; exists ""%string, ""%string; now split|]. intros (x & y & E & H). destruct x; [|discriminate E]. cbn in E. now subst y.
  - rewrite orb_true_iff, IH. split.
    + intros [H|(x & y & -> & H)]; [exists ""%string, (String b s); now split|exists (String b x), y; now split].
    + intros (x & y & E & H). destruct x as [|c x]; cbn in E; [subst y; now left|]. injection E as -> ->. right. now exists x, y.
Qed.
Lemma like_then p : forall s, plain_term p -> like (p +++ "%") s = true <-> exists m y, s = m +++ y /\ same_text p m.
Proof.
  unfold same_text. induction p as [|a p IH]; intros s H.
  - change (like ("" +++ "%") s) with (like "%" s). rewrite like_percent. split.
    + intros _. exists ""%string, s. now split.
    + intros _. exists s, ""%string. split; [now rewrite app_nil|reflexivity].
  - destruct H as (H1 & H2 & H3). cbn [String.append like]. apply Ascii.eqb_neq in H1, H2. rewrite H1. destruct s as [|b s].
    + split; [discriminate|]. intros (m & y & E & S0). destruct m; [discriminate S0|discriminate E].
    + rewrite H2. cbn [orb]. rewrite andb_true_iff, Ascii.eqb_eq, IH by exact H3. split.
      * intros [E (m & y & -> & S0)]. exists (String b m), y. split; [reflexivity|]. cbn [map_text]. now rewrite E, S0.
      * intros (m & y & E & S0). destruct m as [|c m]; [discriminate S0|]. cbn in E. injection E as <- ->. cbn [map_text] in S0. injection S0 as E1 E2.
        split; [exact E1|]. now exists m, y.
Qed.
(** A term without wildcards finds the pages one of whose texts has it as a part or, with exact,
    is the term; the case of letters does not matter. *)
Theorem C194_search : forall pages term p, plain_term term ->
  (In p (search_db pages term false) <-> In p pages /\ exists s, In s [nm_shelf p; nm_book p; nm_page p; nm_path p] /\ part_of term s) /\
  (In p (search_db pages term true) <-> In p pages /\ exists s, In s [nm_shelf p; nm_book p; nm_page p; nm_path p] /\ same_text term s).
Proof.
  intros pages term p H.
  assert (A : forall f : string -> bool, (f (nm_shelf p) || f (nm_book p) || f (nm_page p) || f (nm_path p) = true) <-> exists s, In s [nm_shelf p; nm_book p; nm_page p; nm_path p] /\ f s = true).
  { intros f. rewrite !orb_true_iff. split; [intros [[[E|E]|E]|E]; eexists; (split; [|exact E]); cbn; tauto|]. intros (s & [<-|[<-|[<-|[<-|[]]]]] & E); tauto. }
  unfold search_db. cbv zeta. rewrite !filter_In.
  rewrite (A (like ("%" ++ term ++ "%")%string)), (A (like term)). split.
  - split; intros (Hp & s & Hs & E); (split; [exact Hp|]); exists s; (split; [exact Hs|]).
    + change ("%" ++ term ++ "%")%string with (String "%" (term +++ "%")) in E. apply like_percent in E. destruct E as (x & y & -> & E). apply like_then in E; [|exact H].
      destruct E as (m & z & -> & S0). now exists x, m, z.
    + destruct E as (x & m & z & -> & S0). change ("%" ++ term ++ "%")%string with (String "%" (term +++ "%")). apply like_percent. exists x, (m +++ z). split; [reflexivity|].
      apply like_then; [exact H|]. now exists m, z.
  - split; intros (Hp & s & Hs & E); (split; [exact Hp|]); exists s; (split; [exact Hs|]); now apply like_plain.
Qed.
Example C194_search_ex : plain_term "gaas" /\ search_db [Named 0 "main" "GaAs" "Aspnes" "main/GaAs/Aspnes.yml"; Named 1 "main" "InGaAs" "Zielinski" "a.yml"] "gaas" true
  = [Named 0 "main" "GaAs" "Aspnes" "main/GaAs/Aspnes.yml"].
Proof. split; [cbn; repeat split; discriminate|reflexivity]. Qed.
(** An exact search is not exact if there is an underscore in the name. *)
Theorem C194_exact_refuted : exists pages term p, In p (search_db pages term true) /\
  forall s, In s [nm_shelf p; nm_book p; nm_page p; nm_path p] -> ~ part_of term s.
Proof.
  exists [Named 0 "main" "SiON" "Smith" "x.yml"], "Si_N"%string, (Named 0 "main" "SiON" "Smith" "x.yml"). split; [now left|].
  intros s Hs (x & m & y & E & S0).
  assert (U : In "_"%char (list_ascii_of_string (map_text lower_char s))).
  { rewrite E. clear E Hs. unfold same_text in S0. induction x as [|a x IH]; cbn [String.append map_text list_ascii_of_string]; [|now right].
    destruct m as [|m1 [|m2 [|m3 [|m4 [|m5 m]]]]]; cbn [map_text] in S0; try discriminate S0. injection S0 as E1 E2 E3 E4.
    cbn [String.append map_text list_ascii_of_string]. right. right. left. now rewrite <- E3. }
  cbn [nm_shelf nm_book nm_page nm_path] in Hs. destruct Hs as [<-|[<-|[<-|[<-|[]]]]]; cbn in U; intuition discriminate.
Qed.
Lemma between_spec x d v : between x d v = true <-> exists y, v = Some y /\ Rabs (y - x) <= d.
Proof.
  unfold between. destruct v as [y|]; [|split; [discriminate|intros (y & E & _); discriminate E]].
  rewrite andb_true_iff. destruct (Rle_dec (x - d) y) as [H1|H1]; destruct (Rle_dec y (x + d)) as [H2|H2]; (split; [intros [? ?]; try discriminate|intros (z & E & B); injection E as <-]).
  - exists y. split; [reflexivity|]. apply Rabs_le. lra.
  - split; reflexivity.
  - exfalso. unfold Rabs in B. destruct (Rcase_abs _); lra.
  - exfalso. unfold Rabs in B. destruct (Rcase_abs _); lra.
  - exfalso. unfold Rabs in B. destruct (Rcase_abs _); lra.
Qed.
Lemma in_pages_of t r p : In p (pages_of t r) <-> In p (t_pages t) /\ pg_id p = fst (fst r).
Proof. unfold pages_of. rewrite filter_In, Nat.eqb_eq. reflexivity. Qed.
(** Values of pages no further away than asked for are found, and nothing else. *)
Theorem C194_values : forall t n dn k dk id w,
  (forall v, In (id, w, Some v) (search_value t (t_n t) n dn) <-> In (id, w, Some v) (t_n t) /\ Rabs (v - n) <= dn /\ exists p, In p (t_pages t) /\ pg_id p = id) /\
  (forall v, In (id, w, Some v) (search_value t (t_k t) k dk) <-> In (id, w, Some v) (t_k t) /\ Rabs (v - k) <= dk /\ exists p, In p (t_pages t) /\ pg_id p = id) /\
  (forall r, In r (search_value t (t_n t) n dn) -> snd r <> None) /\
  (forall v u, In (id, w, v, u) (search_nk t n dn k dk) <-> exists y z, v = Some y /\ u = Some z /\ In (id, w, v) (t_n t) /\ In (id, w, u) (t_k t) /\
     Rabs (y - n) <= dn /\ Rabs (z - k) <= dk /\ exists p, In p (t_pages t) /\ pg_id p = id).
Proof.
  intros t n dn k dk id w.
  assert (V : forall rows x d r, In r (search_value t rows x d) <-> In r rows /\ between x d (snd r) = true /\ exists p, In p (t_pages t) /\ pg_id p = fst (fst r)).
  { intros rows x d r. unfold search_value. rewrite in_flat_map. split.
    - intros (r' & H & Hr). apply filter_In in H. apply in_map_iff in Hr. destruct Hr as (p & <- & Hp). apply in_pages_of in Hp. split; [apply H|]. split; [apply H|now exists p].
    - intros (H1 & H2 & p & Hp). exists r. split; [apply filter_In; now split|]. apply in_map_iff. exists p. split; [reflexivity|now apply in_pages_of]. }
  assert (W : forall rows x d v, In (id, w, Some v) (search_value t rows x d) <-> In (id, w, Some v) rows /\ Rabs (v - x) <= d /\ exists p, In p (t_pages t) /\ pg_id p = id).
  { intros rows x d v. rewrite V, between_spec. cbn [fst snd]. split; [intros (H1 & (y & E & B) & P); injection E as <-; tauto|]. intros (H1 & B & P). split; [exact H1|]. split; [now exists v|exact P]. }
  split; [intros v; apply W|]. split; [intros v; apply W|]. split.
  - intros r Hr. apply V in Hr. destruct Hr as (_ & B & _). apply between_spec in B. destruct B as (y & -> & _). discriminate.
  - intros v u. unfold search_nk. rewrite in_flat_map. split.
    + intros (r & Hr & H). apply in_flat_map in H. destruct H as (e & He & H).
      destruct (Nat.eqb_spec (fst (fst r)) (fst (fst e))) as [E1|]; [|destruct H]. destruct (Req_EM_T (snd (fst r)) (snd (fst e))) as [E2|]; [|destruct H].
      destruct (between n dn (snd r)) eqn:B1; [|destruct H]. destruct (between k dk (snd e)) eqn:B2; [|destruct H]. cbn [andb] in H.
      apply in_map_iff in H. destruct H as (p & E & Hp). apply in_pages_of in Hp. destruct r as [[i x] a]. destruct e as [[i' x'] b]. cbn [fst snd] in *. subst i' x'.
      injection E as -> -> -> ->. apply between_spec in B1, B2. destruct B1 as (y & -> & B1). destruct B2 as (z & -> & B2).
      exists y, z. repeat split; try assumption. now exists p.
    + intros (y & z & -> & -> & H1 & H2 & B1 & B2 & p & Hp). exists (id, w, Some y). split; [exact H1|]. apply in_flat_map. exists (id, w, Some z). split; [exact H2|]. cbn [fst snd].
      rewrite Nat.eqb_refl. destruct (Req_EM_T w w); [|congruence]. rewrite (proj2 (between_spec n dn (Some y))) by (now exists y). rewrite (proj2 (between_spec k dk (Some z))) by (now exists z).
      cbn [andb]. apply in_map_iff. exists p. split; [reflexivity|]. apply in_pages_of. exact Hp.
Qed.

(** * Files *)
Lemma contains_spec sub s : contains sub s = true <-> exists a b, s = a +++ sub +++ b.
Proof.
  induction s as [|c s IH].
  - cbn [contains]. rewrite orb_false_r, prefix_spec. split; [intros (b & E); now exists ""%string, b|]. intros (a & b & E). destruct a; [now exists b|discriminate E].
  - change (contains sub (String c s)) with (String.prefix sub (String c s) || contains sub s). rewrite orb_true_iff, prefix_spec, IH. split.
    + intros [(b & E)|(a & b & ->)]; [now exists ""%string, b|now exists (String c a), b].
    + intros (a & b & E). destruct a as [|x a]; [left; now exists b|]. cbn in E. injection E as -> ->. right. now exists a, b.
Qed.
Lemma replace_end new p : absent ".txt" p -> replace ".txt" new (p +++ ".txt") = p +++ new.
Proof.
  unfold replace. induction p as [|x p IH]; intros H; [cbn; now rewrite app_nil|].
  cbn [String.append replace_from]. destruct (String.prefix ".txt" (String x (p +++ ".txt"))) eqn:E.
  - exfalso. apply prefix_spec in E. destruct E as (b & E).
    destruct p as [|y [|z [|u p]]]; cbn in E; try discriminate E. injection E as -> -> -> -> E. apply (H ""%string p). reflexivity.
  - rewrite IH; [reflexivity|]. intros a b Hp. apply (H (String x a) b). now rewrite Hp.
Qed.
Fixpoint no_slash (s : string) : Prop := match s with EmptyString => True | String a r => a <> "/"%char /\ no_slash r end.
Lemma dirname_plain s : no_slash s -> dirname s = None.
Proof. induction s as [|a s IH]; intros H; [reflexivity|]. destruct H as [H1 H2]. cbn. rewrite IH by exact H2. apply Ascii.eqb_neq in H1. now rewrite H1. Qed.
Lemma dirname_in d s : no_slash s -> dirname (d +++ "/" +++ s) = Some d.
Proof. intros H. induction d as [|a d IH]; [cbn; now rewrite dirname_plain|]. cbn [String.append dirname]. change (String.append d (String "/" s)) with (d +++ "/" +++ s). now rewrite IH. Qed.
Lemma no_slash_app a b : no_slash a -> no_slash b -> no_slash (a +++ b).
Proof. induction a as [|x a IH]; intros H Hb; [exact Hb|]. destruct H as [H1 H2]. split; [exact H1|now apply IH]. Qed.
Lemma read_write path s d d' : write path s d = Ok d' -> dirs d' = dirs d /\ read path d' = Some s /\ forall q, q <> path -> read q d' = read q d.
Proof.
  unfold write. destruct (match dirname path with None => true | Some p => existsb (String.eqb p) (dirs d) end); [|discriminate]. intros E. injection E as <-. split; [reflexivity|].
  unfold read. cbn [files find fst]. rewrite String.eqb_refl. split; [reflexivity|]. intros q Hq.
  destruct (String.eqb_spec path q) as [->|_]; [congruence|]. f_equal.
  assert (F : forall l : list (string * sheet), find (fun e => String.eqb (fst e) q) (filter (fun e => negb (String.eqb (fst e) path)) l) = find (fun e => String.eqb (fst e) q) l).
  { induction l as [|e l IH]; [reflexivity|]. cbn [filter find]. destruct (String.eqb_spec (fst e) path) as [E|E]; cbn [negb find].
    - rewrite IH. destruct (String.eqb_spec (fst e) q); [congruence|reflexivity].
    - now rewrite IH. }
  rewrite F. reflexivity.
Qed.
Lemma app_inj p a b : p +++ a = p +++ b -> a = b.
Proof. induction p as [|x p IH]; intros E; [exact E|]. cbn in E. injection E as E. now apply IH. Qed.
(** The columns of a file: wavelengths in metres, and values. *)
Definition in_metres (l : list (R * option R)) : list (list (option R)) := map (fun p => [Some (fst p / 1000000); snd p]) l.
Lemma metres l : map (fun p : R * option R => [Some (fst p * / 10 ^ 6); snd p]) l = in_metres l.
Proof. unfold in_metres. apply map_ext. intros p. replace (10 ^ 6) with 1000000 by ring. reflexivity. Qed.
Lemma nk_path_neq p : p +++ "_n.txt" <> p +++ "_k.txt".
Proof. intros E. apply app_inj in E. discriminate E. Qed.
(** With names without .txt, create_nk_txt makes the folder and the files [file]_n.txt and
    [file]_k.txt in it of what data there are, and leaves all other files alone. *)
Theorem C194_txt : forall t default id file folder d p n k, file <> ""%string -> no_slash file ->
  absent ".txt" (if String.eqb folder "" then file else folder +++ "/" +++ file) ->
  In p (t_pages t) -> pg_id p = id -> material_n t id = n -> material_k t id = k -> n <> Some [] -> k <> Some [] ->
  let path s := (if String.eqb folder "" then file +++ s else folder +++ "/" +++ file +++ s) in
  exists d', create_nk_txt t default id file folder d = Ok d' /\
    (folder = ""%string \/ In folder (dirs d')) /\ (forall x, In x (dirs d) -> In x (dirs d')) /\
    (forall l, n = Some l -> read (path "_n.txt"%string) d' = Some (Sheet "" (in_metres l))) /\
    (forall l, k = Some l -> read (path "_k.txt"%string) d' = Some (Sheet "" (in_metres l))) /\
    (forall q, (n = None \/ q <> path "_n.txt"%string) -> (k = None \/ q <> path "_k.txt"%string) -> read q d' = read q d).
Proof.
  intros t default id file folder d p n k Hf Hs Ha Hp Hid Hn Hk Nn Nk path. unfold create_nk_txt.
  set (d1 := if existsb (String.eqb folder) (dirs d) || String.eqb folder "" then d else FS (folder :: dirs d) (files d)). cbv zeta. fold d1.
  assert (D1 : folder = ""%string \/ In folder (dirs d1)).
  { unfold d1. destruct (String.eqb_spec folder "") as [->|N]; [now left|]. right. rewrite orb_false_r. destruct (existsb (String.eqb folder) (dirs d)) eqn:E; [|now left].
    apply existsb_exists in E. destruct E as (x & Hx & E). apply String.eqb_eq in E. now subst x. }
  assert (D2 : forall x, In x (dirs d) -> In x (dirs d1)) by (intros x Hx; unfold d1; destruct (_ || _); [exact Hx|now right]).
  assert (D3 : forall q, read q d1 = read q d) by (intros q; unfold d1; destruct (_ || _); reflexivity).
  clearbody d1. unfold get_material_txt.
  assert (M : material t id = Ok (Some (n, k))).
  { unfold material. destruct (find (fun p => Nat.eqb (pg_id p) id) (t_pages t)) as [x|] eqn:F; [|exfalso; apply (find_none _ _ F) in Hp; cbv beta in Hp; rewrite Hid, Nat.eqb_refl in Hp; discriminate Hp].
    rewrite Hn, Hk. destruct n as [[|a n]|]; destruct k as [[|b k]|]; try congruence; reflexivity. }
  rewrite M. cbn [bindR]. cbv zeta. apply String.eqb_neq in Hf. rewrite Hf.
  set (o := in_folder folder file).
  assert (O : o = if String.eqb folder "" then file else folder +++ "/" +++ file) by reflexivity. rewrite <- O in Ha.
  destruct (contains ".txt" o) eqn:C; [exfalso; apply contains_spec in C; destruct C as (a & b & C); exact (Ha a b C)|].
  assert (P : forall s, o +++ s = path s) by (intros s; unfold o, in_folder, path; destruct (String.eqb folder ""); [reflexivity|]; now rewrite !MatTextProps.app_assoc).
  unfold to_txt, txt_file.
  change (o ++ ".txt")%string with (o +++ ".txt"). rewrite !(replace_end _ o Ha), !P.
  assert (W : forall s sh dd, no_slash s -> dirs dd = dirs d1 -> exists d', write (path s) sh dd = Ok d').
  { intros s sh dd H E. unfold write. assert (X : match dirname (path s) with None => true | Some p => existsb (String.eqb p) (dirs dd) end = true).
    { unfold path. destruct (String.eqb_spec folder "") as [_|N]; [rewrite dirname_plain; [reflexivity|now apply no_slash_app]|].
      rewrite dirname_in by now apply no_slash_app. rewrite E. apply existsb_exists. exists folder. split; [now destruct D1|apply String.eqb_refl]. }
    rewrite X. eexists. reflexivity. }
  assert (NK : path "_n.txt"%string <> path "_k.txt"%string) by (rewrite <- !P; apply nk_path_neq).
  assert (S1 : no_slash "_n.txt") by (cbn; repeat split; discriminate). assert (S2 : no_slash "_k.txt") by (cbn; repeat split; discriminate).
  destruct n as [ln|].
  - rewrite metres. destruct (W "_n.txt"%string (Sheet "" (in_metres ln)) d1 S1 eq_refl) as [d2 E2]. rewrite E2. cbn [bindR]. destruct (read_write _ _ _ _ E2) as (R1 & R2 & R3).
    destruct k as [lk|].
    + rewrite metres. destruct (W "_k.txt"%string (Sheet "" (in_metres lk)) d2 S2 R1) as [d3 E3]. rewrite E3. destruct (read_write _ _ _ _ E3) as (Q1 & Q2 & Q3).
      exists d3. split; [reflexivity|]. rewrite Q1, R1. split; [exact D1|]. split; [exact D2|]. split; [intros l E; injection E as <-; rewrite Q3 by exact NK; exact R2|].
      split; [intros l E; injection E as <-; exact Q2|]. intros q [?|Hq1] [?|Hq2]; try discriminate. now rewrite Q3, R3, D3.
    + exists d2. split; [reflexivity|]. rewrite R1. split; [exact D1|]. split; [exact D2|]. split; [intros l E; injection E as <-; exact R2|]. split; [discriminate|].
      intros q [?|Hq1] _; try discriminate. now rewrite R3, D3.
  - cbn [bindR]. destruct k as [lk|].
    + rewrite metres. destruct (W "_k.txt"%string (Sheet "" (in_metres lk)) d1 S2 eq_refl) as [d3 E3]. rewrite E3. destruct (read_write _ _ _ _ E3) as (Q1 & Q2 & Q3).
      exists d3. split; [reflexivity|]. rewrite Q1. split; [exact D1|]. split; [exact D2|]. split; [discriminate|]. split; [intros l E; injection E as <-; exact Q2|].
      intros q _ [?|Hq]; try discriminate. now rewrite Q3, D3.
    + exists d1. split; [reflexivity|]. split; [exact D1|]. split; [exact D2|]. split; [discriminate|]. split; [discriminate|]. intros q _ _. apply D3.
Qed.
(** A file of wavelengths, n and k makes a page as in the theorem. *)
Example C194_txt_ex : no_slash "GaAs" /\ absent ".txt" ("data" +++ "/" +++ "GaAs") /\
  exists ln lk, material_n (create_database 100 [Some (nk_file [(1, 3, 2); (2, 4, 0)])]) 0 = Some ln /\
    material_k (create_database 100 [Some (nk_file [(1, 3, 2); (2, 4, 0)])]) 0 = Some lk /\ length ln = 2%nat /\ length lk = 2%nat.
Proof.
  split; [cbn; repeat split; discriminate|]. split.
  - intros a b E. cbn in E. do 9 (destruct a as [|? a]; [discriminate E|injection E as _ E]). destruct a; discriminate E.
  - destruct (C152_rows 100 [Some (nk_file [(1, 3, 2); (2, 4, 0)])] 0 [(1, 3, 2); (2, 4, 0)] eq_refl) as (ln & lk & E1 & E2 & [_ P1] & [_ P2]); [discriminate|].
    exists ln, lk. apply Permutation_length in P1, P2. now repeat split.
Qed.
(** A page that does not exist is not exported, without an error. *)
Theorem C194_missing : forall t default id file folder d, (forall p, In p (t_pages t) -> pg_id p <> id) ->
  exists d', create_nk_txt t default id file folder d = Ok d' /\ files d' = files d.
Proof.
  intros t default id file folder d H. unfold create_nk_txt, get_material_txt. cbv zeta.
  assert (M : material t id = Ok None).
  { unfold material. destruct (find (fun p => Nat.eqb (pg_id p) id) (t_pages t)) as [x|] eqn:F; [|reflexivity]. apply find_some in F. destruct F as [F1 F2]. apply Nat.eqb_eq in F2. now apply H in F1. }
  rewrite M. cbn [bindR]. eexists. split; [reflexivity|]. destruct (_ || _); reflexivity.
Qed.
(** A folder with .txt in its name misleads it: the files would be in another folder. *)
Theorem C194_folder_refuted : exists t id folder file d, folder = "n.txt.d"%string /\ file = "GaAs"%string /\ In folder (dirs d) /\
  (exists l, l <> [] /\ material_n t id = Some l) /\ create_nk_txt t "" id file folder d = Err RuntimeError.
Proof.
  exists (Tables [Page 0 true false] [(0%nat, 1, Some 3)] []), 0%nat, "n.txt.d"%string, "GaAs"%string, (FS ["n.txt.d"%string] []).
  split; [reflexivity|]. split; [reflexivity|]. split; [now left|]. split; [exists [(1, Some 3)]; split; [discriminate|reflexivity]|]. reflexivity.
Qed.
(** Exported data are those that materials of the database use: reading between the rows of the
    file gives the n of the material. *)
Theorem C194_same : forall t d id l x, k_nk d = true -> k_file d = DbFile t -> material_n t id = Some l -> l <> [] ->
  (forall p, In p l -> snd p <> None) ->
  let rows := in_metres l in let column i := map (fun r => match nth i r None with Some y => y | None => 0 end) rows in
  nk_n d id x = Ok (np_interp (column 0%nat) (column 1%nat) x).
Proof.
  intros t d id l x Hk Hf Hm Hl Hs rows column. unfold nk_n, nk_interpolated, nkdb_load. rewrite Hk, Hf. cbn [snd]. rewrite Hm.
  destruct l as [|a l']; [congruence|]. cbv beta iota. set (l := a :: l') in *.
  assert (V : forall l : list (R * option R), (forall p, In p l -> snd p <> None) -> values l = Some (map (fun p => match snd p with Some y => y | None => 0 end) l)).
  { clear. induction l as [|[w v] l IH]; intros H; [reflexivity|]. change (values ((w, v) :: l)) with (match v, values l with Some v, Some r => Some (v :: r) | _, _ => None end).
    rewrite IH by (intros p Hp; apply H; now right). destruct v as [v|]; [reflexivity|]. exfalso. apply (H (w, None)); [now left|reflexivity]. }
  rewrite V by exact Hs. do 2 f_equal.
  - unfold column, rows, in_metres. rewrite map_map. apply map_ext. intros p. cbn [nth]. replace (10 ^ 6) with 1000000 by ring. reflexivity.
  - unfold column, rows, in_metres. rewrite map_map. apply map_ext. intros p. reflexivity.
Qed.
(** With the same wavelengths for n and k, the file of the export as csv has a row with each of
    them. *)
Theorem C194_csv : forall output a b d d', map fst a = map fst b -> to_csv output (Some a) (Some b) d = Ok d' ->
  exists s, read (replace ".csv" "(nk).csv" output) d' = Some s /\ s_head s = "wl,n,k"%string /\ length (s_rows s) = length a /\
    forall i w n, nth_error a i = Some (w, n) -> exists k, nth_error b i = Some (w, k) /\ nth_error (s_rows s) i = Some [Some w; n; k].
Proof.
  intros output a b d d' H E. assert (L : length a = length b) by (rewrite <- (map_length fst a), H; apply map_length).
  unfold to_csv in E. rewrite L, Nat.eqb_refl in E. destruct (read_write _ _ _ _ E) as (_ & R1 & _). eexists. split; [exact R1|]. split; [reflexivity|]. cbn [s_rows].
  clear E R1. revert b H L. induction a as [|x a IH]; intros [|y b] H L; try discriminate L; [split; [reflexivity|intros [|i] w n Hi; discriminate Hi]|].
  cbn [map] in H. injection H as H1 H2. injection L as L. destruct (IH b H2 L) as [I1 I2]. split; [cbn; now rewrite I1|].
  intros [|i] w n Hi; [|exact (I2 i w n Hi)]. cbn [nth_error] in Hi. injection Hi as ->. cbn [fst] in H1. destruct y as [w' k]. cbn [fst] in H1. subst w'. now exists k.
Qed.
(** Otherwise n and k are in files of their own, as far as there are data; a missing page is not exported. *)
Definition beside (l : list (R * option R)) : list (list (option R)) := map (fun p => [Some (fst p); snd p]) l.
Theorem C194_csv_single : forall output n k d d', to_csv output n k d = Ok d' ->
  (forall a b, n = Some a -> k = Some b -> length a <> length b) ->
  let nf := replace ".csv" "(n).csv" output in let kf := replace ".csv" "(k).csv" output in
  (forall b, k = Some b -> read kf d' = Some (Sheet "wl,k" (beside b))) /\
  (forall a, n = Some a -> nf <> kf -> read nf d' = Some (Sheet "wl,n" (beside a))) /\
  (forall a, n = Some a -> k = None -> read nf d' = Some (Sheet "wl,n" (beside a))) /\
  (forall q, (n = None \/ q <> nf) -> (k = None \/ q <> kf) -> read q d' = read q d).
Proof.
  intros output n k d d' E H nf kf.
  assert (E' : bindR (csv_file output "(n).csv" "wl,n" n d) (fun d1 => csv_file output "(k).csv" "wl,k" k d1) = Ok d').
  { unfold to_csv in E. destruct n as [a|], k as [b|]; try exact E. specialize (H a b eq_refl eq_refl). apply Nat.eqb_neq in H. rewrite H in E. exact E. }
  clear E H. destruct (csv_file output "(n).csv" "wl,n" n d) as [d1|] eqn:E1; [|discriminate]. cbn [bindR] in E'.
  assert (A : (forall a, n = Some a -> read nf d1 = Some (Sheet "wl,n" (beside a))) /\ forall q, n = None \/ q <> nf -> read q d1 = read q d).
  { unfold csv_file in E1. destruct n as [a|].
    - destruct (read_write _ _ _ _ E1) as (_ & A1 & A2). split; [intros a' e; injection e as <-; exact A1|intros q [e|e]; [discriminate|apply A2, e]].
    - injection E1 as <-. split; [discriminate|reflexivity]. }
  destruct A as [A1 A2].
  assert (B : (forall b, k = Some b -> read kf d' = Some (Sheet "wl,k" (beside b))) /\ forall q, k = None \/ q <> kf -> read q d' = read q d1).
  { unfold csv_file in E'. destruct k as [b|].
    - destruct (read_write _ _ _ _ E') as (_ & B1 & B2). split; [intros b' e; injection e as <-; exact B1|intros q [e|e]; [discriminate|apply B2, e]].
    - injection E' as <-. split; [discriminate|reflexivity]. }
  destruct B as [B1 B2]. split; [exact B1|]. split; [intros a e ne; rewrite B2 by (right; exact ne); apply A1, e|].
  split; [intros a e ek; rewrite B2 by (left; exact ek); apply A1, e|]. intros q h1 h2. rewrite B2, A2 by assumption. reflexivity.
Qed.
Theorem C194_csv_missing : forall t default id output folder d, (forall p, In p (t_pages t) -> pg_id p <> id) ->
  get_material_csv t default id output folder d = Ok d.
Proof.
  intros t default id output folder d H. unfold get_material_csv.
  assert (M : material t id = Ok None).
  { unfold material. destruct (find (fun p => Nat.eqb (pg_id p) id) (t_pages t)) as [x|] eqn:F; [|reflexivity]. apply find_some in F. destruct F as [F1 F2]. apply Nat.eqb_eq in F2. now apply H in F1. }
  rewrite M. reflexivity.
Qed.
Example C194_csv_single_ex : exists d', to_csv "a.csv" (Some [(1, Some 3)]) (Some [(1, Some 2); (2, Some 4)]) (FS [] []) = Ok d' /\
  read "a(k).csv" d' = Some (Sheet "wl,k" [[Some 1; Some 2]; [Some 2; Some 4]]) /\ read "a(n).csv" d' = Some (Sheet "wl,n" [[Some 1; Some 3]]).
Proof. eexists. split; [reflexivity|]. split; reflexivity. Qed.
(** But with as many wavelengths for k as for n, k is written beside the wavelengths of n even if
    it was measured elsewhere. *)
Theorem C194_csv_refuted : exists t d', In (0%nat, 1, Some 3) (t_n t) /\ In (0%nat, 5, Some 2) (t_k t) /\ (forall r, In r (t_k t) -> snd (fst r) <> 1) /\
  t = create_database 100 [Some [Tabulated "n" [[1; 3]]; Tabulated "k" [[5; 2]]]] /\
  get_material_csv t "" 0 "a.csv" "" (FS [] []) = Ok d' /\ read "a(nk).csv" d' = Some (Sheet "wl,n,k" [[Some 1; Some 3; Some 2]]).
Proof.
  assert (T : create_database 100 [Some [Tabulated "n" [[1; 3]]; Tabulated "k" [[5; 2]]]] = Tables [Page 0 true true] [(0%nat, 1, Some 3)] [(0%nat, 5, Some 2)]).
  { unfold create_database. cbn [length seq combine fold_left]. unfold insert_entry. cbn [fst snd]. unfold load_material. cbn [load_items load_item read_rows bindR fst snd].
    change (String.eqb "n" "n") with true. change (String.eqb "k" "n") with false. change (String.eqb "k" "k") with true. cbv iota.
    unfold tabulated_n, extinction. cbn [length Nat.eqb min_of max_of fold_left]. destruct (Req_EM_T 1 1); [|congruence]. reflexivity. }
  exists (Tables [Page 0 true true] [(0%nat, 1, Some 3)] [(0%nat, 5, Some 2)]). eexists.
  split; [now left|]. split; [now left|]. split; [intros r [<-|[]]; cbn; lra|]. split; [now rewrite T|]. split; reflexivity.
Qed.
