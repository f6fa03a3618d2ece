(** Property C88: the runs of fiberassign. Vocabulary in Job_Spec.v. *)
Require Import Reals ZArith String List Bool Lia Lra.
From Verif Require Import Base Box_Model Tile_Model Tile_Thm Job_Model Job_Spec.
Import ListNotations.
Open Scope R_scope.

Lemma date_exists : forall ag names r, exists d, date_of ag names r d.
Proof.
  intros ag names r. destruct (ag_obsdate ag) as [d|] eqn:E; [exists d; constructor; auto|]. destruct (in_dec string_dec "OBSDATE" names); eexists; [apply OfRow; auto|apply Middle; auto].
Qed.
Lemma date_unique : forall ag names r d d', date_of ag names r d -> date_of ag names r d' -> d = d'.
Proof. intros ag names r d d' H H'. destruct H, H'; try congruence; contradiction. Qed.
Lemma existsb_date : forall names, existsb (String.eqb "OBSDATE") names = true <-> In "OBSDATE"%string names.
Proof. intros names. rewrite existsb_exists. split; [intros (x & I0 & E); apply String.eqb_eq in E; subst; auto|intro I0; exists "OBSDATE"%string; split; auto; apply String.eqb_refl]. Qed.
Lemma dates_one : forall T (o : outside T) ag names r d, date_of ag names r d -> tile_dates o ag (Table [r] (Some names)) = do x <- ou_time o d; Ok [x].
Proof.
  intros T o ag names r d H. unfold tile_dates. cbn [tb_names tb_rows]. destruct H as [d E|E I0|E N].
  - rewrite E. auto.
  - rewrite E. apply existsb_date in I0. rewrite I0. cbn. destruct (ou_time o (tr_date r)); auto.
  - rewrite E. destruct (existsb (String.eqb "OBSDATE") names) eqn:X; [apply existsb_date in X; contradiction|]. auto.
Qed.
Lemma stuck_one : forall stuck broken sky read id, stuck_on_sky_from_fafns stuck broken sky read (fafns_for_tiles [id]) = do f <- read (fa_name id); Ok [(ff_tile f, stuck_of_file stuck broken sky f)].
Proof. intros. unfold stuck_on_sky_from_fafns. rewrite C70_names by discriminate. cbn [map stuck_loop]. destruct (read (fa_name id)); auto. Qed.
(** The run for a tile gets exactly what belongs to that tile. *)
Theorem C88_tile : forall T (o : outside T) stuck broken sky ag names use_sky r targets j,
  one_tile_job o stuck broken sky ag (Table [r] (Some names)) use_sky targets = Ok j <-> job_for o stuck broken sky ag names use_sky r targets j.
Proof.
  intros T o stuck broken sky ag names use_sky r targets j. unfold one_tile_job, run_assign_init. cbn [tb_rows map]. rewrite stuck_one. destruct (date_exists ag names r) as [d D].
  unfold convert_targets, read_sky_targets, convert_tiles. cbn [tb_rows map map_result]. rewrite (dates_one T o ag names r d D). unfold job_for. split.
  - intro H. destruct (ou_rundate o (fa_name (tr_id r))) as [rd|] eqn:R; [|discriminate]. cbn [bind] in H. destruct (ou_time o d) as [[mjd isot]|] eqn:TM.
    2:{ exfalso. destruct use_sky; [destruct (ou_sky o (sky_name (tr_id r)))|]; cbn in H; discriminate. }
    destruct (ou_file o (fa_name (tr_id r))) as [f|] eqn:FF. 2:{ exfalso. destruct use_sky; [destruct (ou_sky o (sky_name (tr_id r)))|]; cbn in H; discriminate. }
    assert (TL : exists theta ha, asked (ag_fieldrot ag) (ou_rotation o (tr_ra r) (tr_dec r) mjd) theta /\ asked (ag_ha ag) 0 ha /\
      match ag_fieldrot ag with None => [ou_rotation o (tr_ra r) (tr_dec r) mjd] | Some th => [th] end = [theta] /\ match ag_ha ag with Some h => h | None => 0 end = ha).
    { destruct (ag_fieldrot ag), (ag_ha ag); do 2 eexists; cbn; auto. }
    destruct TL as (theta & ha & A1 & A2 & A3 & A4). destruct use_sky.
    + destruct (ou_sky o (sky_name (tr_id r))) as [rows|] eqn:SK; [|discriminate]. cbn in H. rewrite A3, A4 in H. rewrite app_nil_r in H. injection H as <-. cbn. split; auto. split; [exists d, mjd, isot, theta, ha; repeat split; auto|]. split; [exists rows; auto|]. exists f. auto.
    + cbn in H. rewrite A3, A4 in H. injection H as <-. cbn. split; auto. split; [exists d, mjd, isot, theta, ha; repeat split; auto|]. split; auto. exists f. auto.
  - intros (R & (d' & mjd & isot & theta & ha & D' & TM & A1 & A2 & E) & SK & f & FF & ST). rewrite (date_unique _ _ _ _ _ D' D) in TM. rewrite R. cbn [bind]. rewrite TM, FF.
    assert (A3 : match ag_fieldrot ag with None => [ou_rotation o (tr_ra r) (tr_dec r) mjd] | Some th => [th] end = [theta]) by (unfold asked in A1; destruct (ag_fieldrot ag); subst; auto).
    assert (A4 : match ag_ha ag with Some h => h | None => 0 end = ha) by (unfold asked in A2; destruct (ag_ha ag); subst; auto).
    destruct j as [rd tl tg stk]. cbn [jb_rundate jb_tiles jb_targets jb_stuck] in E, SK, ST, R |- *. subst tl stk. destruct use_sky.
    + destruct SK as (rows & SK & TG). subst tg. rewrite SK. cbn. rewrite A3, A4, app_nil_r. auto.
    + subst tg. cbn. rewrite A3, A4. auto.
Qed.
Print Assumptions C88_tile.
(** A pass is one run per tile, in order, each with the targets that the previous ones left. *)
Theorem C88_pass : forall T (o : outside T) stuck broken sky ag names use_sky step rows targets jobs final,
  pass_loop o stuck broken sky ag (Some names) use_sky step rows targets = Ok (jobs, final) <-> runs (job_for o stuck broken sky ag names use_sky) step rows targets jobs final.
Proof.
  intros T o stuck broken sky ag names use_sky step. induction rows as [|r rows IH]; intros targets jobs final; cbn [pass_loop].
  - split; intro H; [injection H as <- <-; constructor|inversion H; subst; auto].
  - split; intro H.
    + destruct (one_tile_job o stuck broken sky ag (Table [r] (Some names)) use_sky targets) as [j|] eqn:E; [|discriminate]. cbn [bind] in H. destruct (pass_loop o stuck broken sky ag (Some names) use_sky step rows (step j targets)) as [[js fn]|] eqn:L; [|discriminate]. cbn in H. injection H as <- <-.
      constructor; [apply C88_tile; auto|apply IH; auto].
    + inversion H as [|r0 rows0 t0 j js fn OK RS]; subst. apply C88_tile in OK. rewrite OK. cbn [bind]. apply IH in RS. rewrite RS. auto.
Qed.
Print Assumptions C88_pass.
(** A pass goes to its end exactly when everything it needs can be read. *)
Theorem C88_readable : forall T (o : outside T) stuck broken sky ag names use_sky step rows targets,
  (exists jobs final, pass_loop o stuck broken sky ag (Some names) use_sky step rows targets = Ok (jobs, final)) <-> Forall (readable o ag names use_sky) rows.
Proof.
  intros T o stuck broken sky ag names use_sky step. induction rows as [|r rows IH]; intros targets.
  - split; intro H; [constructor|cbn; eauto].
  - split.
    + intros (jobs & final & H). apply C88_pass in H. inversion H as [|r0 rows0 t0 j js fn OK RS]; subst. constructor; [|apply (IH (step j targets)); exists js, final; apply C88_pass; auto].
      destruct OK as (R & (d & mjd & isot & theta & ha & D & TM & _) & SK & f & FF & _). split; [eauto|]. split; [exists d, (mjd, isot); auto|]. split; [|eauto]. intros ->. destruct SK as (rw & SK & _). eauto.
    + intro H. inversion H as [|r0 rows0 (X1 & (d & [mjd isot] & D & TM) & X3 & f & FF) HR]; subst. destruct X1 as [rd R].
      assert (J : exists j, job_for o stuck broken sky ag names use_sky r targets j).
      { assert (A1 : exists th, asked (ag_fieldrot ag) (ou_rotation o (tr_ra r) (tr_dec r) mjd) th) by (unfold asked; destruct (ag_fieldrot ag); eauto). assert (A2 : exists h, asked (ag_ha ag) 0 h) by (unfold asked; destruct (ag_ha ag); eauto). destruct A1 as [th A1]. destruct A2 as [h A2].
        destruct use_sky.
        - destruct (X3 eq_refl) as [rw SK]. exists (Job rd (Tiles [tr_id r] [tr_ra r] [tr_dec r] [tr_cond r] [isot] [th] [h]) [targets; rw] [(ff_tile f, stuck_of_file stuck broken sky f)]). split; auto. split; [exists d, mjd, isot, th, h; auto|]. split; [exists rw; auto|]. exists f; auto.
        - exists (Job rd (Tiles [tr_id r] [tr_ra r] [tr_dec r] [tr_cond r] [isot] [th] [h]) [targets] [(ff_tile f, stuck_of_file stuck broken sky f)]). split; auto. split; [exists d, mjd, isot, th, h; auto|]. split; auto. exists f; auto. }
      destruct J as [j J]. apply (IH (step j targets)) in HR. destruct HR as (jobs & final & HR). apply C88_pass in HR. exists (j :: jobs), final. apply C88_pass. constructor; auto.
Qed.
Print Assumptions C88_readable.
(** Changing the files of another tile changes nothing for this one. *)
Theorem C88_others : forall T (o o' : outside T) stuck broken sky ag names use_sky r targets other, other <> tr_id r ->
  (forall d, ou_time o d = ou_time o' d) -> (forall a b m, ou_rotation o a b m = ou_rotation o' a b m) ->
  (forall n, n <> fa_name other -> ou_rundate o n = ou_rundate o' n) -> (forall n, n <> sky_name other -> ou_sky o n = ou_sky o' n) -> (forall n, n <> fa_name other -> ou_file o n = ou_file o' n) ->
  one_tile_job o stuck broken sky ag (Table [r] (Some names)) use_sky targets = one_tile_job o' stuck broken sky ag (Table [r] (Some names)) use_sky targets.
Proof.
  intros T o o' stuck broken sky ag names use_sky r targets other NE H1 H2 H3 H4 H5. unfold one_tile_job, run_assign_init. cbn [tb_rows map]. rewrite !stuck_one. destruct (C70_files (tr_id r) other) as [N1 N2].
  rewrite H3 by (intro X; apply NE; symmetry; auto). rewrite H5 by (intro X; apply NE; symmetry; auto). unfold convert_targets, read_sky_targets, convert_tiles. cbn [tb_rows map map_result]. rewrite H4 by (intro X; apply NE; symmetry; auto).
  destruct (date_exists ag names r) as [d D]. rewrite !(dates_one T _ ag names r d D). rewrite H1. destruct (ou_time o' d) as [[mjd isot]|]; auto. cbn [bind rotations map fst snd]. rewrite H2. auto.
Qed.
Print Assumptions C88_others.
(** The attribute names of the table is read when no date is asked for: tables that do not have it, like those of astropy that the code makes, raise for every tile. *)
Theorem C88_no_date_refuted : forall T (o : outside T) stuck broken sky ag use_sky r targets, ag_obsdate ag = None -> exists e, one_tile_job o stuck broken sky ag (Table [r] None) use_sky targets = Err e.
Proof.
  intros T o stuck broken sky ag use_sky r targets N. unfold one_tile_job, run_assign_init. cbn [tb_rows]. destruct (ou_rundate o (fa_name (tr_id r))) as [rd|e]; [|eexists; reflexivity]. cbn [bind]. destruct (convert_targets o (Table [r] None) use_sky targets) as [tg|e]; [|eexists; reflexivity]. cbn [bind].
  unfold convert_tiles, tile_dates. rewrite N. cbn. eauto.
Qed.
Print Assumptions C88_no_date_refuted.
(** With a date, the attribute is not looked at. *)
Theorem C88_date : forall T (o : outside T) stuck broken sky ag names use_sky r targets d, ag_obsdate ag = Some d ->
  one_tile_job o stuck broken sky ag (Table [r] None) use_sky targets = one_tile_job o stuck broken sky ag (Table [r] (Some names)) use_sky targets.
Proof. intros T o stuck broken sky ag names use_sky r targets d E. unfold one_tile_job, run_assign_init, convert_targets, read_sky_targets, convert_tiles, tile_dates. cbn [tb_rows tb_names]. rewrite E. auto. Qed.
Print Assumptions C88_date.
(** A table of several tiles: each tile gets its own date, rotation and hour angle, as if it were alone. *)
Theorem C88_tables : forall T (o : outside T) ag names rows ts, rows <> [] ->
  (convert_tiles o ag (Table rows (Some names)) = Ok ts <->
  exists l, Forall2 (fun r x => exists date mjd, date_of ag names r date /\ ou_time o date = Ok (mjd, fst (fst x)) /\
      asked (ag_fieldrot ag) (ou_rotation o (tr_ra r) (tr_dec r) mjd) (snd (fst x)) /\ asked (ag_ha ag) 0 (snd x)) rows l /\
    ts = Tiles (map tr_id rows) (map tr_ra rows) (map tr_dec rows) (map tr_cond rows) (map (fun x => fst (fst x)) l) (map (fun x => snd (fst x)) l) (map snd l))%type.
Proof.
  intros T o ag names rows ts NE0. unfold convert_tiles. cbn [tb_rows].
  assert (D : forall rows dates, tile_dates o ag (Table rows (Some names)) = Ok dates -> Forall2 (fun r x => exists d, date_of ag names r d /\ ou_time o d = Ok x) rows dates).
  { clear rows NE0. intros rows dates H. unfold tile_dates in H. cbn [tb_names tb_rows] in H. destruct (ag_obsdate ag) as [d|] eqn:E.
    - destruct (ou_time o d) as [x|] eqn:TM; [|discriminate]. injection H as <-. induction rows; constructor; auto. exists d. split; auto. constructor; auto.
    - destruct (existsb (String.eqb "OBSDATE") names) eqn:X.
      + apply existsb_date in X. revert dates H. induction rows as [|r rows IH]; intros dates H; cbn [map_result] in H; [injection H as <-; constructor|].
        destruct (ou_time o (tr_date r)) as [x|] eqn:TM; [|discriminate]. cbn [bind] in H. destruct (map_result _ rows) as [xs|]; [|discriminate]. injection H as <-.
        constructor; [exists (tr_date r); split; auto; apply OfRow; auto|apply IH; auto].
      + assert (NI : ~ In "OBSDATE"%string names) by (intro Y; apply existsb_date in Y; congruence).
        destruct (ou_time o "2022-07-01"%string) as [x|] eqn:TM; [|discriminate]. injection H as <-. induction rows; constructor; auto. exists "2022-07-01"%string. split; auto. apply Middle; auto. }
  assert (C : forall rows dates, rows <> [] -> Forall2 (fun r x => exists d, date_of ag names r d /\ ou_time o d = Ok x) rows dates -> tile_dates o ag (Table rows (Some names)) = Ok dates).
  { clear rows NE0 D. intros rows dates NE F. unfold tile_dates. cbn [tb_names tb_rows]. destruct (ag_obsdate ag) as [d|] eqn:E.
    - assert (K : forall r d', date_of ag names r d' -> d' = d) by (intros r d' H; apply (date_unique ag names r); auto; constructor; auto).
      inversion F as [|r0 x0 rs xs (d0 & D0 & T0) F']; subst; [contradiction|]. apply K in D0. subst d0. rewrite T0. cbn [bind]. f_equal. cbn [map]. f_equal. clear F NE. induction F' as [|r x rs xs (d1 & D1 & T1) F' IH]; auto.
      cbn [map]. apply K in D1. subst d1. rewrite T0 in T1. injection T1 as <-. f_equal. auto.
    - destruct (existsb (String.eqb "OBSDATE") names) eqn:X.
      + apply existsb_date in X. clear NE. induction F as [|r x rs xs (d1 & D1 & T1) F' IH]; auto. cbn [map_result].
        assert (d1 = tr_date r) by (apply (date_unique ag names r); auto; apply OfRow; auto). subst d1. rewrite T1. cbn [bind]. rewrite IH. reflexivity.
      + assert (NI : ~ In "OBSDATE"%string names) by (intro Y; apply existsb_date in Y; congruence).
        assert (K : forall r d', date_of ag names r d' -> d' = "2022-07-01"%string) by (intros r d' H; apply (date_unique ag names r); auto; apply Middle; auto).
        inversion F as [|r0 x0 rs xs (d0 & D0 & T0) F']; subst; [contradiction|]. apply K in D0. subst d0. rewrite T0. cbn [bind]. f_equal. cbn [map]. f_equal. clear F NE. induction F' as [|r x rs xs (d1 & D1 & T1) F' IH]; auto.
        cbn [map]. apply K in D1. subst d1. rewrite T0 in T1. injection T1 as <-. f_equal. auto. }
  set (ha := match ag_ha ag with Some h => h | None => 0 end).
  assert (TH : forall rows (dates : list (R * string)), Forall2 (fun r x => exists d, date_of ag names r d /\ ou_time o d = Ok x) rows dates ->
    exists l, Forall2 (fun r x => exists date mjd, date_of ag names r date /\ ou_time o date = Ok (mjd, fst (fst x)) /\
      asked (ag_fieldrot ag) (ou_rotation o (tr_ra r) (tr_dec r) mjd) (snd (fst x)) /\ asked (ag_ha ag) 0 (snd x)) rows l /\ map snd dates = map (fun x => fst (fst x)) l /\
      match ag_fieldrot ag with None => rotations (ou_rotation o) (map tr_ra rows) (map tr_dec rows) (map fst dates) | Some th => map (fun _ => th) rows end = map (fun x => snd (fst x)) l /\ map (fun _ => ha) rows = map snd l).
  { clear rows NE0 C D. intros rows dates F. induction F as [|r x rs xs (d & D1 & T1) F IH]; [exists []; repeat split; auto; destruct (ag_fieldrot ag); auto|].
    destruct IH as (l & F2 & E1 & E2 & E3). exists ((snd x, match ag_fieldrot ag with None => ou_rotation o (tr_ra r) (tr_dec r) (fst x) | Some th => th end, ha) :: l).
    split; [constructor; auto; exists d, (fst x); cbn [fst snd]; destruct x; repeat split; auto; [unfold asked; destruct (ag_fieldrot ag); auto|unfold asked, ha; destruct (ag_ha ag); auto]|].
    cbn [map fst snd]. rewrite E1, E3. repeat split; auto. destruct (ag_fieldrot ag); cbn [map rotations]; rewrite E2; auto. }
  split.
  - intro H. destruct (tile_dates o ag (Table rows (Some names))) as [dates|] eqn:E; [|discriminate]. cbn [bind] in H. injection H as <-. apply D, TH in E. destruct E as (l & F & E1 & E2 & E3).
    exists l. split; auto. rewrite E1, E3, E2. reflexivity.
  - intros (l & F & ->).
    assert (X : exists dates : list (R * string), Forall2 (fun r x => exists d, date_of ag names r d /\ ou_time o d = Ok x) rows dates).
    { clear NE0. induction F as [|r x rs xs (d & mjd & D1 & T1 & _) F [dates IH] ]; [exists []; constructor|]. exists ((mjd, fst (fst x)) :: dates). constructor; eauto. }
    destruct X as [dates FD]. rewrite (C rows dates NE0 FD). cbn [bind]. destruct (TH rows dates FD) as (l' & F' & E1 & E2 & E3). rewrite E1, E2. fold ha. rewrite E3.
    assert (L : l = l').
    { clear - F F'. revert l' F'. induction F as [|r [ [i1 t1] h1] rs xs (d & mjd & D1 & T1 & A1 & A2) F IH]; intros l' F'; inversion F' as [|? [ [i2 t2] h2] ? ? (d' & mjd' & D2 & T2 & A3 & A4) F2]; subst; auto.
      cbn [fst snd] in *. assert (d' = d) by (eapply date_unique; eauto). subst d'. rewrite T1 in T2. injection T2 as <- <-. f_equal; [|apply IH; auto]. unfold asked in *.
      destruct (ag_fieldrot ag), (ag_ha ag); subst; auto. }
    subst l'. reflexivity.
Qed.
Print Assumptions C88_tables.
(** A pass over two tiles, with dates in the table and sky targets. *)
Definition two_rows : list tile_row := [TileRow 1000 10 20 1 "2021-05-14"; TileRow 1001 12 (-5) 1 "2021-06-01"].
Definition two_outside : outside BinNums.Z := Outside (fun d => Ok (INR (String.length d), d)) (fun a b m => a + b + m) (fun n => Ok "2021-05-01"%string) (fun n => Ok [Z.of_nat (String.length n)]) (fun n => Ok (FaFile 1000 [(3, 2, "SKY"%string)] []))%Z.
Example C88_case : Forall (readable two_outside (Args None None (Some 3)) ["TILEID"; "OBSDATE"]%string true) two_rows /\ (1001 <> tr_id (TileRow 1000 10 20 1 "2021-05-14"))%Z /\
  date_of (Args None None None) ["TILEID"; "OBSDATE"]%string (TileRow 1000 10 20 1 "2021-05-14") "2021-05-14".
Proof.
  split; [|split; [discriminate|apply OfRow; cbn; auto] ]. repeat constructor; cbn; eauto; eexists; eexists; (split; [apply OfRow; cbn; auto|reflexivity]).
Qed.
