(** Proofs for the DESI cut-sky script: randoms. *)
Require Import Reals Lra Lia ZArith String List Sorted Bool.
From Verif Require Import Base Vec3 Isometry_Model Sky_Model Cutsky_Model Cutsky_Spec Box_Model Box_Spec Box_Proof Box_Proof2 Box_Proof3 Box_Proof4 Mask_Spec Mask_Model Sample_Model Sample_Spec Sample_Thm Random_Model Random_Spec Random_Thm Spline_Model Spline_Spec FA_Model Foot_Model Region_Model Script_Model Script_Thm SV3_Model Rosette_Model Rosette_Spec Rosette_Proof4 Desi_Model Desi_Spec Desi_Proof Desi_Proof2.
Import ListNotations.
Open Scope R_scope.

Lemma ten_times : forall n, Rtrunc (INR n * INR nrand_over_data + 0.5) = Z.of_nat (10 * n).
Proof.
  intros n. pose proof (pos_INR n) as P. change (INR nrand_over_data) with (INR 10). replace (INR n * INR 10 + 0.5) with (IZR (Z.of_nat (10 * n)) + 0.5) by (rewrite <- INR_IZR_INZ, mult_INR; ring).
  unfold Rtrunc. assert (0 <= IZR (Z.of_nat (10 * n))) by (apply IZR_le; lia). destruct (Rlt_dec _ 0); [lra|].
  pose proof (Rfloor_spec (IZR (Z.of_nat (10 * n)) + 0.5)) as [A B]. apply Z.le_antisymm.
  - apply Z.lt_succ_r. apply lt_IZR. rewrite succ_IZR. lra.
  - apply Z.lt_succ_r. apply lt_IZR. rewrite succ_IZR. lra.
Qed.
Definition direction (o : object) : R * R := (o_ra o, o_dec o).
Lemma random_shape : forall split adraws ddraws fuel rr de n out, random_cutsky split (fun x => x) adraws ddraws fuel rr de None (Some (Z.of_nat n)) None = Ok out ->
  map (@List.length object) out = split n /\ forall o, In o (List.concat out) -> o_dist o = 1 /\ o_pos o = sky_point 1 (o_ra o) (o_dec o).
Proof.
  intros split adraws ddraws fuel rr de n out H. unfold random_cutsky in H. cbn [collective_size bind] in H. destruct (Z.of_nat n <? 0)%Z eqn:E; [apply Z.ltb_lt in E; lia|]. rewrite Nat2Z.id in H.
  destruct (sample_angles _ _ _ _ _) as [angles|] eqn:EA; [|discriminate]. cbn [bind] in H. injection H as <-. apply C31_sizes in EA. split.
  - rewrite zip_lengths; [exact EA|]. rewrite map_map. apply map_ext. intros l. rewrite map_length. reflexivity.
  - intros o I. apply in_concat in I. destruct I as (l & Il & Io). apply zip_In in Il. destruct Il as (la & ld & -> & Iad). apply zip_In in Io. destruct Io as (a & d & -> & Ixy). cbn [o_dist o_pos o_ra o_dec].
    apply in_combine_r in Iad. apply in_map_iff in Iad. destruct Iad as (l' & <- & _). apply in_combine_r in Ixy. apply in_map_iff in Ixy. destruct Ixy as (? & <- & _). split; auto. apply unit_sky.
Qed.

(** Rows of randoms. *)
Definition random_table (installed : option regressis) (x : list (R * R) * list R) : table :=
  Table [("RA", ColS (map fst (fst x))); ("DEC", ColS (map snd (fst x))); ("Distance", ColS (map (fun _ => 1) (fst x))); ("Position", ColV (map (fun p => sky_point 1 (fst p) (snd p)) (fst x))); ("Z", ColS (snd x))]%string
    (map (pixel_of installed) (fst x)).
Lemma gather_randoms : forall installed l, l <> [] -> gather (map (random_table installed) l) = random_table installed (flat_map fst l, flat_map snd l).
Proof.
  intros installed l Ne. unfold gather. destruct l as [|x0 l0]; [easy|]. set (l := x0 :: l0) in *. change (map (random_table installed) l) with (random_table installed x0 :: map (random_table installed) l0) at 1. cbn [random_table t_data map fst snd].
  match goal with |- _ = ?r => let r' := eval cbv beta iota delta [random_table fst snd] in r in change r with r' end. clearbody l. clear Ne x0 l0. f_equal.
  - assert (Q : forall nm (f : R * R -> R), (forall x, nums nm (random_table installed x) = map f (fst x)) -> flat_map (nums nm) (map (random_table installed) l) = map f (flat_map fst l)).
    { intros nm f E. induction l as [|x l IH]; auto. cbn [map flat_map]. rewrite E, map_app, IH. reflexivity. }
    assert (Qv : flat_map (vecs "Position") (map (random_table installed) l) = map (fun p => sky_point 1 (fst p) (snd p)) (flat_map fst l)).
    { clear Q. induction l as [|x l IH]; auto. cbn [map flat_map]. rewrite map_app, IH. reflexivity. }
    assert (Qz : flat_map (nums "Z") (map (random_table installed) l) = flat_map snd l).
    { clear Q Qv. induction l as [|x l IH]; auto. cbn [map flat_map]. rewrite IH. reflexivity. }
    rewrite (Q "RA"%string fst), (Q "DEC"%string snd), (Q "Distance"%string (fun _ => 1)), Qv, Qz by reflexivity. reflexivity.
  - induction l as [|x l IH]; auto. cbn [map flat_map]. rewrite map_app, IH. reflexivity.
Qed.
Lemma select_maps : forall {A B} (g : A -> bool) (f : A -> B) l, Box_Model.select (map g l) (map f l) = Ok (map f (filter g l)).
Proof. intros A B g f. induction l as [|a l IH]; auto. cbn [map Box_Model.select filter]. rewrite IH. cbn [bind]. destruct (g a); reflexivity. Qed.
Lemma footprint_randoms : forall inside i region l c' px, sky_area (i_desi i) inside -> (forall o, In o l -> o_dist o = 1 /\ o_pos o = sky_point 1 (o_ra o) (o_dec o)) -> footprint i region (random_catalog l) = Ok (c', px) ->
  let k := filter (surveyed inside i region) (map direction l) in forall z, Table (set_col "Z" (ColS z) (pc_data c')) px = random_table (i_regressis i) (k, z) /\ csize c' = List.length k.
Proof.
  intros inside i region l c' px A D H k z. destruct (footprint_ok inside i region (random_catalog l) (map o_ra l) (map o_dec l) c' px A eq_refl eq_refl H) as [F1 F2].
  rewrite combine_maps in F1, F2. change (fun x => (o_ra x, o_dec x)) with direction in *. rewrite map_map in F1, F2. set (g := fun x => surveyed inside i region (direction x)) in *.
  unfold Box_Model.select_rows, random_catalog, pcat_new in F1. cbn [pc_data map_cols select_col] in F1. rewrite !select_maps in F1. cbn [bind] in F1. injection F1 as <-.
  rewrite map_map, select_maps in F2. injection F2 as <-.
  assert (Ek : k = map direction (filter g l)).
  { unfold k. clear. induction l as [|o l IH]; auto. cbn [map filter]. rewrite IH. change (g o) with (surveyed inside i region (direction o)). destruct (surveyed _ _ _ _); reflexivity. }
  assert (Dk : forall o, In o (filter g l) -> o_dist o = 1 /\ o_pos o = sky_point 1 (o_ra o) (o_dec o)) by (intros o I; apply filter_In in I; apply D; tauto).
  rewrite Ek. split; [|cbn; rewrite !map_length; reflexivity]. unfold random_table. cbn [pc_data set_col fst snd String.eqb Ascii.eqb Bool.eqb]. rewrite !map_map.
  rewrite (map_ext_in o_dist (fun _ => 1) (filter g l)) by (intros o I; apply Dk; auto). rewrite (map_ext_in o_pos (fun o => sky_point 1 (o_ra o) (o_dec o)) (filter g l)) by (intros o I; apply Dk; auto). reflexivity.
Qed.

Lemma randoms_drawn : forall inside i box n region ra dec seed many ts, ready i box n -> sky_area (i_desi i) inside -> splines (i_make i) -> splits (i_split i) ->
  region_randoms i box region (ra, dec) seed many = Ok ts -> exists a e out z, limits i box a e /\
    random_cutsky (i_split i) (fun x => x) (i_angles i seed) (fun _ _ => []) (i_rounds i) (ra - a, ra + a) (dec - e, dec + e) None (Some (Z.of_nat (10 * many))) None = Ok out /\
    List.length (List.concat out) = (10 * many)%nat /\ gather ts = random_table (i_regressis i) (filter (surveyed inside i region) (map direction (List.concat out)), z) /\
    List.length z = List.length (filter (surveyed inside i region) (map direction (List.concat out))) /\
    ((forall k r x, In x (i_redshifts i (seed * 276)%Z k r) -> 0 < snd x) -> forall x, In x z -> i_zmin i <= x <= i_zmax i).
Proof.
  intros inside i box n region ra dec seed many ts (Eb & W & X & Y & Z & _) A Sp Sl H. unfold region_randoms in H. rewrite ten_times in H. cbn [fst snd] in H.
  destruct (box_to_cutsky (boxsize box) _ _) as [[[dr rr] de]|] eqn:B; [|discriminate]. cbn [bind] in H.
  destruct (btc_any _ _ _ _ _ _ X Y Z B) as (m & a & e & -> & -> & -> & _). cbn [fst snd] in H.
  destruct (random_cutsky _ _ _ _ _ _ _ _ _ _) as [out|] eqn:Er; [|discriminate]. cbn [bind] in H. destruct (random_shape _ _ _ _ _ _ _ _ Er) as [Lo Do].
  destruct (map_result _ out) as [kept|] eqn:Ek; [|discriminate]. cbn [bind] in H. destruct (generate_redshifts _ _ _ _ _ _ _ _ _) as [z|] eqn:Ez; [|discriminate]. cbn [bind] in H. injection H as <-.
  destruct (C67_redshifts _ _ _ _ _ _ _ _ _ _ Sp Ez) as [Lz Rz].
  set (k := fun l => filter (surveyed inside i region) (map direction l)).
  assert (Q : forall out kept z, (forall o, In o (List.concat out) -> o_dist o = 1 /\ o_pos o = sky_point 1 (o_ra o) (o_dec o)) -> map_result (fun l => footprint i region (random_catalog l)) out = Ok kept ->
    map (@List.length R) z = map (fun x => csize (fst x)) kept ->
    map (fun x : pcat * list (option nat) * list R => Table (set_col "Z" (ColS (snd x)) (pc_data (fst (fst x)))) (snd (fst x))) (combine kept z) = map (random_table (i_regressis i)) (combine (map k out) z) /\
    map (@List.length R) z = map (@List.length (R * R)) (map k out)).
  { clear - A. induction out as [|l out IH]; intros kept z D Ek Lz; cbn [map_result] in Ek.
    - injection Ek as <-. destruct z; [|discriminate]. split; reflexivity.
    - destruct (footprint i region (random_catalog l)) as [[c' px]|] eqn:F; [|discriminate]. cbn [bind] in Ek. destruct (map_result _ out) as [kept'|] eqn:Ek'; [|discriminate]. injection Ek as <-.
      destruct z as [|z0 z]; [discriminate|]. cbn [map fst] in Lz. injection Lz as Lz0 Lz. cbn [List.concat] in D.
      destruct (IH kept' z ltac:(intros o I; apply D; apply in_or_app; auto) eq_refl Lz) as [IH1 IH2]. destruct (footprint_randoms inside i region l c' px A ltac:(intros o I; apply D; apply in_or_app; auto) F z0) as [T1 T2].
      cbn [map combine fst snd]. rewrite IH1, IH2, Lz0, T2, T1. split; reflexivity. }
  destruct (Q out kept z Do Ek Lz) as [Qt Qz]. rewrite Qt. clear Q.
  assert (Tot : List.length (List.concat out) = (10 * many)%nat) by (rewrite <- total_map, Lo; apply Sl).
  assert (Ne : combine (map k out) z <> []).
  { intros E. assert (z = []) by (destruct out, z; cbn in *; auto; discriminate). subst z. unfold generate_redshifts in Ez. destruct (nz_mask _ _ _ _ _ _) as [mk|]; [|discriminate]. cbn [bind] in Ez.
    rewrite C31_nothing_refuted in Ez; [discriminate|]. cbn in Lz. rewrite <- Lz. reflexivity. }
  rewrite gather_randoms by exact Ne.
  assert (F1 : flat_map fst (combine (map k out) z) = filter (surveyed inside i region) (map direction (List.concat out))).
  { clear - Qz. revert z Qz. induction out as [|l out IH]; intros [|z0 z] Q; try discriminate; auto. injection Q as Q0 Q. cbn [map combine flat_map fst List.concat]. rewrite map_app, filter_app, IH by auto. reflexivity. }
  assert (F2 : flat_map snd (combine (map k out) z) = List.concat z).
  { clear - Qz. revert z Qz. induction out as [|l out IH]; intros [|z0 z] Q; try discriminate; auto. injection Q as Q0 Q. cbn [map combine flat_map snd List.concat]. rewrite IH by auto. reflexivity. }
  assert (F3 : List.length (List.concat z) = List.length (flat_map fst (combine (map k out) z))).
  { clear - Qz. revert z Qz. induction out as [|l out IH]; intros [|z0 z] Q; try discriminate; auto. injection Q as Q0 Q. cbn [map combine flat_map fst List.concat]. rewrite !app_length, IH by auto. cbn [fst]. lia. }
  exists a, e, out, (List.concat z). split; [exists (m, i_distance i (i_zmax i)); exact B|]. split; [rewrite <- Er; f_equal; f_equal; ring|]. split; [exact Tot|]. split; [rewrite <- F1, F2; reflexivity|]. split; [rewrite <- F1; exact F3|].
  intros U x I. apply in_concat in I. destruct I as (l & Il & Ix). exact (Rz U l x Il Ix).
Qed.
Lemma randoms_ok : forall inside i box n region ra dec seed many ts, ready i box n -> sky_area (i_desi i) inside -> splines (i_make i) -> splits (i_split i) ->
  region_randoms i box region (ra, dec) seed many = Ok ts -> randoms_of inside i box region ra dec seed many (gather ts).
Proof.
  intros inside i box n region ra dec seed many ts Rd A Sp Sl H. destruct (randoms_drawn inside i box n region ra dec seed many ts Rd A Sp Sl H) as (a & e & out & z & Li & Er & Tot & Eg & Lz & Rz).
  exists a, e, (map direction (List.concat out)), (filter (surveyed inside i region) (map direction (List.concat out))), z. split; [exact Li|]. split; [rewrite map_length; exact Tot|]. split.
  { intros De1 De2 As p I. apply in_map_iff in I. destruct I as (o & <- & I). cbn [direction fst snd].
    destruct (C35_cutsky (i_split i) (fun x => x) (i_angles i seed) (fun _ _ => []) (ra - a) (ra + a) (dec - e) (dec + e) Sl ltac:(lra) As ltac:(intros ? ? ? ? []) (i_rounds i) None _ None out ltac:(discriminate) Er) as (_ & _ & _ & L).
    destruct (L o I) as (L1 & L2 & L3 & _). auto. }
  split; [exists (surveyed inside i region); split; [reflexivity|intros p; apply surveyed_ok]|]. split; [exact Lz|]. split; [exact Rz|]. rewrite Eg. split; reflexivity.
Qed.
