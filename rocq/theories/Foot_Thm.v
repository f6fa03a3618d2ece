(** C52: footprint selection. *)
Require Import Reals ZArith List Bool String Permutation Lia.
From Verif Require Import Base Box_Model Blind_Model Blind_Thm Blind_Thm2 Brick_Model Foot_Model Foot_Spec.
Import ListNotations.
Open Scope string_scope.

(** The tiles found are as many as the tiles that cover. *)
Definition picked (covers : tile -> R * R -> bool) (tiles : list tile) (p : R * R) : list nat :=
  filter (fun i => match nth_error tiles i with Some t => covers t p | None => false end) (seq 0 (List.length tiles)).
Lemma picked_length : forall covers p tiles, List.length (picked covers tiles p) = List.length (filter (fun t => covers t p) tiles).
Proof.
  intros covers p. unfold picked. assert (G : forall pre tiles, List.length (filter (fun i => match nth_error (pre ++ tiles) i with Some t => covers t p | None => false end) (seq (List.length pre) (List.length tiles))) = List.length (filter (fun t => covers t p) tiles)).
  { intros pre tiles. revert pre. induction tiles as [|t tiles IH]; intros pre; cbn; auto. rewrite nth_error_app2 by lia. rewrite Nat.sub_diag. cbn. specialize (IH (pre ++ [t])%list). rewrite app_length, <- app_assoc in IH. cbn in IH. rewrite Nat.add_1_r in IH. destruct (covers t p); cbn; rewrite IH; auto. }
  intros tiles. apply (G []).
Qed.
Lemma found_length : forall covers find, finds covers find -> forall tiles p, List.length (find tiles p) = List.length (filter (fun t => covers t p) tiles).
Proof.
  intros covers find HF tiles p. rewrite <- picked_length. apply Permutation_length. destruct (HF tiles p) as [ND HI]. apply NoDup_Permutation; auto; [apply NoDup_filter, seq_NoDup|]. intros i. rewrite HI. unfold picked. rewrite filter_In, in_seq. split.
  - intros (t & HT & HC). rewrite HT. split; auto. assert (nth_error tiles i <> None) by congruence. apply nth_error_Some in H. lia.
  - intros [_ HC]. destruct (nth_error tiles i) as [t|]; [eauto|discriminate].
Qed.
Lemma filter_filter : forall {A} (f g : A -> bool) l, filter f (filter g l) = filter (fun x => g x && f x) l.
Proof. intros A f g. induction l as [|x l IH]; cbn; auto. destruct (g x); cbn; [destruct (f x); rewrite IH; auto|auto]. Qed.
Lemma filter_same : forall {A} (f g : A -> bool) l, (forall x, f x = g x) -> filter f l = filter g l.
Proof. intros A f g l H. induction l as [|x l IH]; cbn; auto. rewrite H, IH. auto. Qed.
Lemma length_pos : forall {A} (f : A -> bool) l, (1 <=? Z.of_nat (List.length (filter f l)))%Z = true <-> exists x, In x l /\ f x = true.
Proof.
  intros A f l. rewrite Z.leb_le. split.
  - intros H. destruct (filter f l) as [|x r] eqn:E; cbn in H; [lia|]. exists x. apply filter_In. rewrite E. cbn; auto.
  - intros (x & HX). apply filter_In in HX. destruct (filter f l); [contradiction|]. cbn [List.length]. lia.
Qed.

(** Both ways of looking for points agree with the number of tiles. *)
Lemma mask_gen : forall covers find inside, finds covers find -> contains covers inside -> forall (count : tile -> bool) table positions npasses ret,
  mask_of (match npasses with
    | Some n => let tile_id := map (find (filter count table)) positions in let mask := map (fun tt : list nat => (n <=? Z.of_nat (List.length tt))%Z) tile_id in if ret : bool then Indices mask tile_id else Mask mask
    | None => let l := map (inside (filter count table)) positions in if ret then Nearest (map fst l) (map snd l) else Mask (map fst l) end) = map (in_footprint covers count table npasses) positions.
Proof.
  intros covers find inside HF HC count table positions npasses ret. destruct npasses as [n|]; cbv zeta.
  - replace (mask_of _) with (map (fun tt : list nat => (n <=? Z.of_nat (List.length tt))%Z) (map (find (filter count table)) positions)) by (destruct ret; auto). rewrite map_map. apply map_ext. intros p. unfold in_footprint, passes. rewrite (found_length covers find HF), filter_filter. auto.
  - replace (mask_of _) with (map fst (map (inside (filter count table)) positions)) by (destruct ret; auto). rewrite map_map. apply map_ext. intros p. unfold in_footprint, passes. destruct (HC (filter count table) p) as [H _].
    apply eq_iff_eq_true. rewrite H. rewrite length_pos. split; intros (t & T1 & T2).
    + apply filter_In in T1. exists t. rewrite T2, andb_true_r. auto.
    + apply andb_true_iff in T2. exists t. rewrite filter_In. tauto.
Qed.

Lemma release_table_of : forall release redux night, release_table (lower release) redux night -> release_of release = Ok (Some redux, night).
Proof. intros release redux night H. unfold release_of. cbv zeta. inversion H; auto. Qed.

(** Releases made from files: the tiles that count are those of the survey and program asked for, up to the last night; they are looked for in the file of the reduction. *)
Theorem C52_selection : forall covers find inside read_csv load fn positions release redux night npasses program survey ret table, finds covers find -> contains covers inside ->
  release_table (lower release) redux night -> read_csv (fn redux) = Some table ->
  exists a, is_in_desi_footprint find inside read_csv load fn positions release npasses program survey ret = Ok a /\ mask_of a = map (in_footprint covers (requested survey program night) table npasses) positions.
Proof.
  intros covers find inside read_csv load fn positions release redux night npasses program survey ret table HF HC RT RC. unfold is_in_desi_footprint, select_tiles. rewrite (release_table_of _ _ _ RT). cbn [bind fst snd]. rewrite RC. cbn [bind].
  set (tiles := match night with Some n => _ | None => _ end). assert (ET : tiles = filter (requested survey program night) table).
  { unfold tiles, requested, before. destruct night as [n|]; [rewrite filter_filter; auto|]. apply filter_same. intros t. rewrite andb_true_r. auto. }
  rewrite ET. rewrite <- (mask_gen covers find inside HF HC (requested survey program night) table positions npasses ret). destruct npasses; eexists; split; reflexivity.
Qed.
(** Release y5: desimodel's tiles of the program. *)
Theorem C52_y5 : forall covers find inside read_csv load fn positions release npasses program survey ret, finds covers find -> contains covers inside -> lower release = "y5" ->
  exists a, is_in_desi_footprint find inside read_csv load fn positions release npasses program survey ret = Ok a /\ mask_of a = map (in_footprint covers (fun t => t_program t =? upper program) load npasses) positions.
Proof.
  intros covers find inside read_csv load fn positions release npasses program survey ret HF HC EL. unfold is_in_desi_footprint, select_tiles. replace (release_of release) with (Ok (@None string, @None Z)) by (unfold release_of; rewrite EL; auto). cbn [bind fst snd].
  rewrite <- (mask_gen covers find inside HF HC (fun t => t_program t =? upper program) load positions npasses ret). destruct npasses; eexists; split; reflexivity.
Qed.
(** Other releases, and missing files. *)
Theorem C52_unknown : forall find inside read_csv load fn positions release npasses program survey ret, lower release <> "y5" -> (forall redux night, ~ release_table (lower release) redux night) ->
  is_in_desi_footprint find inside read_csv load fn positions release npasses program survey ret = Err ValueError.
Proof.
  intros find inside read_csv load fn positions release npasses program survey ret N5 NT. unfold is_in_desi_footprint, select_tiles. replace (release_of release) with (@Err (option string * option Z) ValueError); auto. symmetry. unfold release_of. cbv zeta.
  destruct (String.eqb_spec (lower release) "sv3") as [X|_]; [elim (NT _ _ ltac:(rewrite X; constructor))|]. destruct (String.eqb_spec (lower release) "onepercent") as [X|_]; [elim (NT _ _ ltac:(rewrite X; constructor))|].
  destruct (String.eqb_spec (lower release) "da02") as [X|_]; [elim (NT _ _ ltac:(rewrite X; constructor))|]. destruct (String.eqb_spec (lower release) "m3") as [X|_]; [elim (NT _ _ ltac:(rewrite X; constructor))|].
  destruct (String.eqb_spec (lower release) "y1") as [X|_]; [elim (NT _ _ ltac:(rewrite X; constructor))|]. destruct (String.eqb_spec (lower release) "y3") as [X|_]; [elim (NT _ _ ltac:(rewrite X; constructor))|].
  destruct (String.eqb_spec (lower release) "y5"); [contradiction|auto].
Qed.
Theorem C52_no_file : forall find inside read_csv load fn positions release redux night npasses program survey ret, release_table (lower release) redux night -> read_csv (fn redux) = None ->
  is_in_desi_footprint find inside read_csv load fn positions release npasses program survey ret = Err ExternalError.
Proof. intros. unfold is_in_desi_footprint, select_tiles. rewrite (release_table_of _ _ _ H). cbn [bind fst]. rewrite H0. auto. Qed.

Lemma in_footprint_passes : forall covers count table n n' p, (n <= n')%Z -> in_footprint covers count table (Some n') p = true -> in_footprint covers count table (Some n) p = true.
Proof. intros covers count table n n' p L. cbn. rewrite !Z.leb_le. lia. Qed.
Lemma fewer_map : forall (f g : R * R -> bool) l, (forall p, f p = true -> g p = true) -> no_fewer (map f l) (map g l).
Proof. intros f g l H. induction l; constructor; auto. Qed.
(** Any call that returns gives the mask of some table and some tiles that count, the same whatever the number of passes. *)
Lemma any_mask : forall covers find inside read_csv load fn release program survey a positions npasses ret, finds covers find -> contains covers inside ->
  is_in_desi_footprint find inside read_csv load fn positions release npasses program survey ret = Ok a ->
  exists tiles, select_tiles read_csv load fn release program survey = Ok tiles /\ mask_of a = map (in_footprint covers (fun _ => true) tiles npasses) positions.
Proof.
  intros covers find inside read_csv load fn release program survey a positions npasses ret HF HC H. unfold is_in_desi_footprint in H. destruct (select_tiles read_csv load fn release program survey) as [tiles|] eqn:ES; [|discriminate]. cbn [bind] in H. exists tiles. split; auto.
  rewrite <- (mask_gen covers find inside HF HC (fun _ => true) tiles positions npasses ret). replace (filter (fun _ => true) tiles) with tiles by (clear; induction tiles; cbn; congruence). destruct npasses; apply ok_inj_p in H; subst; auto.
Qed.
(** Asking for more passes never adds objects; no number is the same as one. *)
Theorem C52_passes : forall covers find inside read_csv load fn positions release program survey n n' ret ret' a a', finds covers find -> contains covers inside -> (n <= n')%Z ->
  is_in_desi_footprint find inside read_csv load fn positions release (Some n) program survey ret = Ok a -> is_in_desi_footprint find inside read_csv load fn positions release (Some n') program survey ret' = Ok a' ->
  no_fewer (mask_of a') (mask_of a).
Proof.
  intros covers find inside read_csv load fn positions release program survey n n' ret ret' a a' HF HC LN H H'. destruct (any_mask covers _ _ _ _ _ _ _ _ _ _ _ _ HF HC H) as (t & T & ->). destruct (any_mask covers _ _ _ _ _ _ _ _ _ _ _ _ HF HC H') as (t' & T' & ->). assert (t' = t) by congruence. subst t'.
  apply fewer_map. intros p. apply in_footprint_passes. auto.
Qed.
Theorem C52_default : forall covers find inside read_csv load fn positions release program survey ret ret' a a', finds covers find -> contains covers inside ->
  is_in_desi_footprint find inside read_csv load fn positions release None program survey ret = Ok a -> is_in_desi_footprint find inside read_csv load fn positions release (Some 1%Z) program survey ret' = Ok a' -> mask_of a' = mask_of a.
Proof.
  intros covers find inside read_csv load fn positions release program survey ret ret' a a' HF HC H H'. destruct (any_mask covers _ _ _ _ _ _ _ _ _ _ _ _ HF HC H) as (t & T & ->). destruct (any_mask covers _ _ _ _ _ _ _ _ _ _ _ _ HF HC H') as (t' & T' & ->). assert (t' = t) by congruence. subst t'. auto.
Qed.
(** Adding tiles never removes objects. *)
Lemma extends_filter : forall f l l', extends l l' -> (List.length (filter f l) <= List.length (filter f l'))%nat.
Proof. intros f l l' X. induction X; cbn; auto; [destruct (f t); cbn; lia|destruct (f t); cbn; lia]. Qed.
Lemma extends_filtered : forall f l l', extends l l' -> extends (filter f l) (filter f l').
Proof. intros f l l' X. induction X; cbn; [constructor|destruct (f t); [constructor|]; auto|destruct (f t); [constructor 3|]; auto]. Qed.
Theorem C52_more_tiles : forall covers find inside read_csv read_csv' load load' fn positions release npasses program survey ret ret' a a', finds covers find -> contains covers inside ->
  extends load load' -> (forall path table, read_csv path = Some table -> exists table', read_csv' path = Some table' /\ extends table table') ->
  is_in_desi_footprint find inside read_csv load fn positions release npasses program survey ret = Ok a -> is_in_desi_footprint find inside read_csv' load' fn positions release npasses program survey ret' = Ok a' ->
  no_fewer (mask_of a) (mask_of a').
Proof.
  intros covers find inside read_csv read_csv' load load' fn positions release npasses program survey ret ret' a a' HF HC XL XR H H'.
  destruct (any_mask covers _ _ _ _ _ _ _ _ _ _ _ _ HF HC H) as (t & T & ->). destruct (any_mask covers _ _ _ _ _ _ _ _ _ _ _ _ HF HC H') as (t' & T' & ->).
  assert (XT : extends t t').
  { unfold select_tiles in T, T'. destruct (release_of release) as [[[redux|] night]|]; cbn [bind fst snd] in T, T'; try discriminate.
    - destruct (read_csv (fn redux)) as [tb|] eqn:RC; [|discriminate]. destruct (XR _ _ RC) as (tb' & RC' & XB). rewrite RC' in T'. cbv zeta in T, T'. destruct night; apply ok_inj_p in T, T'; subst; repeat apply extends_filtered; auto.
    - apply ok_inj_p in T, T'. subst. apply extends_filtered; auto. }
  apply fewer_map. intros p. pose proof (extends_filter (fun t => true && covers t p) _ _ XT). unfold in_footprint, passes. destruct npasses; rewrite !Z.leb_le; lia.
Qed.
(** The indices returned for a number of passes are those of tiles that count and cover the object, each once. *)
Theorem C52_indices : forall covers find inside read_csv load fn positions release redux night n program survey table, finds covers find -> contains covers inside ->
  release_table (lower release) redux night -> read_csv (fn redux) = Some table ->
  exists mask ids, is_in_desi_footprint find inside read_csv load fn positions release (Some n) program survey true = Ok (Indices mask ids) /\
    Forall2 (fun p l => NoDup l /\ forall i, In i l <-> exists t, nth_error (filter (requested survey program night) table) i = Some t /\ covers t p = true) positions ids.
Proof.
  intros covers find inside read_csv load fn positions release redux night n program survey table HF HC RT RC. unfold is_in_desi_footprint, select_tiles. rewrite (release_table_of _ _ _ RT). cbn [bind fst snd]. rewrite RC. cbn [bind].
  set (tiles := match night with Some n => _ | None => _ end). assert (ET : tiles = filter (requested survey program night) table).
  { unfold tiles, requested, before. destruct night as [m|]; [rewrite filter_filter; auto|]. apply filter_same. intros t. rewrite andb_true_r. auto. }
  rewrite ET. eexists. eexists. split; [reflexivity|]. clear - HF. induction positions as [|p l IH]; cbn; constructor; auto. 
Qed.
(** With DESI_SPECTRO_REDUX, files of tiles are looked for there; without any variable, in the default directory. *)
Theorem C52_path : forall env path, assoc "DESI_SPECTRO_REDUX" env = Some path -> path <> "" -> ends_with_slash path = false ->
  forall redux, tiles_fn (fst (import_paths env)) redux = path ++ "/" ++ redux ++ "/tiles-" ++ redux ++ ".csv".
Proof. intros env path H NE NS redux. unfold import_paths. rewrite H. cbn [fst]. unfold tiles_fn, join. destruct (String.eqb_spec path ""); [contradiction|]. rewrite NS. auto. Qed.
Theorem C52_default_path : forall env, assoc "DESI_SPECTRO_REDUX" env = None -> assoc "DESI_SURVEYOPS" env = None ->
  (forall redux, tiles_fn (fst (import_paths env)) redux = "/global/cfs/cdirs/desi/spectro/redux/" ++ redux ++ "/tiles-" ++ redux ++ ".csv") /\
  assoc "DESI_SURVEYOPS" (snd (import_paths env)) = Some "/global/cfs/cdirs/desi/survey/ops/surveyops/trunk".
Proof. intros env H1 H2. unfold import_paths. rewrite H1, H2. cbn [fst snd]. split; [intros redux; reflexivity|]. rewrite assoc_set. reflexivity. Qed.
(** With DESI_SURVEYOPS only, files of tiles are looked for in DESI_SURVEYOPS rather than in the default reduction directory. *)
Theorem C52_path_refuted : exists env path, assoc "DESI_SPECTRO_REDUX" env = None /\ assoc "DESI_SURVEYOPS" env = Some path /\
  forall redux, tiles_fn (fst (import_paths env)) redux = path ++ "/" ++ redux ++ "/tiles-" ++ redux ++ ".csv" /\ tiles_fn (fst (import_paths env)) redux <> tiles_fn default_redux redux.
Proof. exists [("DESI_SURVEYOPS", "/ops")], "/ops". repeat split. cbn. discriminate. Qed.
(** With DESI_SPECTRO_REDUX only, DESI_SURVEYOPS, which release y5 needs, is left unset. *)
Theorem C52_surveyops_refuted : exists env, assoc "DESI_SURVEYOPS" env = None /\ assoc "DESI_SURVEYOPS" (snd (import_paths env)) = None.
Proof. exists [("DESI_SPECTRO_REDUX", "/redux")]. split; reflexivity. Qed.

(** Tiles one degree wide in right ascension stand for the geometry. *)
Definition near (t : tile) (p : R * R) : bool := if Req_EM_T (t_ra t) (fst p) then true else false.
Definition find_near (tiles : list tile) (p : R * R) : list nat := picked near tiles p.
Definition inside_near (tiles : list tile) (p : R * R) : bool * nat := (existsb (fun t => near t p) tiles, match find_near tiles p with [] => 0%nat | i :: _ => i end).
Lemma find_near_finds : finds near find_near.
Proof.
  intros tiles p. split; [apply NoDup_filter, seq_NoDup|]. intros i. unfold find_near, picked. rewrite filter_In, in_seq. split.
  - intros [_ HC]. destruct (nth_error tiles i) as [t|]; [eauto|discriminate].
  - intros (t & HT & HC). rewrite HT. split; auto. assert (nth_error tiles i <> None) by congruence. apply nth_error_Some in H. lia.
Qed.
Lemma inside_near_contains : contains near inside_near.
Proof.
  intros tiles p. unfold inside_near. cbn [fst snd]. split; [apply existsb_exists|]. intros NE. destruct (find_near tiles p) as [|i l] eqn:EF.
  - destruct tiles as [|t tiles]; [congruence|]. exists t. split; auto. intros EX. apply existsb_exists in EX. destruct EX as (s & IS & NS). apply In_nth_error in IS. destruct IS as [i IS]. assert (IF : In i (find_near (t :: tiles) p)) by (apply find_near_finds; eauto). rewrite EF in IF. contradiction.
  - assert (IF : In i (find_near tiles p)) by (rewrite EF; cbn; auto). apply find_near_finds in IF. destruct IF as (t & T1 & T2). eauto.
Qed.
(** Release y5: the survey asked for is not looked at. *)
Theorem C52_y5_survey_refuted : exists covers find inside read_csv load fn positions survey a, finds covers find /\ contains covers inside /\ (forall t, In t load -> t_survey t <> survey) /\
  is_in_desi_footprint find inside read_csv load fn positions "y5" None "dark" survey false = Ok a /\ mask_of a = [true].
Proof.
  exists near, find_near, inside_near, (fun _ => None), [Tile "main" "DARK" 0 1 0], (fun s => s), [(1, 0)%R], "sv3", (Mask [true]). split; [apply find_near_finds|]. split; [apply inside_near_contains|]. split; [intros t [<-|[]]; discriminate|]. split; [|reflexivity].
  unfold is_in_desi_footprint, select_tiles. change (upper "dark") with "DARK". change (release_of "y5") with (Ok (@None string, @None Z)). cbn. unfold inside_near. cbn. unfold near. cbn. destruct (Req_EM_T 1 1); [auto|congruence].
Qed.
(** Three tiles over the first object: one after the last night, one of another program; nothing over the second. *)
Example C52_case : let table := [Tile "main" "dark" 20220613 1 0; Tile "main" "dark" 20220614 1 0; Tile "main" "bright" 20220101 1 0] in let read_csv := fun s => if s =? "/r/daily/tiles-daily.csv" then Some table else None in let fn := tiles_fn (fst (import_paths [("DESI_SPECTRO_REDUX", "/r")])) in
  finds near find_near /\ contains near inside_near /\ release_table (lower "Y1") "daily" (Some 20220613%Z) /\ read_csv (fn "daily") = Some table /\
  is_in_desi_footprint find_near inside_near read_csv [] fn [(1, 0); (2, 0)]%R "Y1" (Some 1%Z) "dark" "main" true = Ok (Indices [true; false] [[0%nat]; []]) /\
  is_in_desi_footprint find_near inside_near read_csv [] fn [(1, 0); (2, 0)]%R "Y1" (Some 2%Z) "dark" "main" false = Ok (Mask [false; false]).
Proof.
  cbv zeta. split; [apply find_near_finds|]. split; [apply inside_near_contains|]. split; [constructor|]. split; [reflexivity|].
  split; unfold is_in_desi_footprint; match goal with |- context [select_tiles ?a ?b ?c ?d ?e ?f] => change (select_tiles a b c d e f) with (Ok [Tile "main" "dark" 20220613 1 0]) end; cbn; unfold find_near, picked; cbn; unfold near; cbn; destruct (Req_EM_T 1 1); try congruence; destruct (Req_EM_T 1 2) as [X|_]; try (apply eq_IZR in X; lia); cbn; reflexivity.
Qed.
Print Assumptions C52_selection.
Print Assumptions C52_y5.
Print Assumptions C52_unknown.
Print Assumptions C52_no_file.
Print Assumptions C52_passes.
Print Assumptions C52_default.
Print Assumptions C52_more_tiles.
Print Assumptions C52_indices.
Print Assumptions C52_path.
Print Assumptions C52_default_path.
Print Assumptions C52_path_refuted.
Print Assumptions C52_surveyops_refuted.
Print Assumptions C52_y5_survey_refuted.
