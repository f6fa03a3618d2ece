(** Property C100, continued: when the script ends well, and a run of it. *)
Require Import Reals Lra Lia ZArith String Ascii List Sorted Bool.
From Verif Require Import Base Vec3 Isometry_Model Isometry_Proof Sky_Model Sky_Proof Cutsky_Model Cutsky_Spec Cutsky_Proof Box_Model Box_Spec Box_Proof Box_Proof2 Box_Proof3 Box_Proof4 Rsd_Model Rsd_Spec Rsd_Thm Remap_Model Remap_Spec Remap_Proof Remap_Proof4 Remap_Thm Mask_Spec Mask_Model Sample_Model Sample_Spec Sample_Thm Random_Model Random_Spec Random_Thm Random_Thm2 Spline_Model Spline_Spec Spline_Thm FA_Model Foot_Model Region_Model Script_Model Script_Thm SV3_Model Rosette_Model Rosette_Spec Rosette_Proof Rosette_Proof2 Rosette_Proof4 Rosette_Proof6 Rosette_Thm Rosette_Case Desi_Model Desi_Spec Desi_Proof Desi_Proof2 Desi_Proof3 Desi_Proof4 Desi_Proof5 Desi_Thm.
Import ListNotations.
Open Scope R_scope.

(** The script (as it is meant) ends well if the table of n(z) makes a mask, the box has limits on the sky, distortions bring no object on the observer and, when randoms are asked for, those of each region can be drawn. *)
Theorem C100_succeeds : forall inside i regions box n pos m, ready i box n -> sky_area (i_desi i) inside -> (forall s z, List.length (i_smear i s z) = List.length z) ->
  splines (i_make i) -> splits (i_split i) -> shares (i_share i) -> NoDup regions -> (forall region, In region regions -> In region ["N"; "DN"; "DS"]%string) ->
  column (bc_cat box) (pc_position (bc_cat box)) = Some (ColV pos) -> nz_mask (i_make i) (i_fuel i) (i_distance i) (i_table i) (i_zmin i) (i_zmax i) = Ok m -> (exists a e, limits i box a e) ->
  (forall region ra dec, In region regions -> photometric_region_center region = Ok (ra, dec) ->
     watched (Some (i_factor i)) (seen ra dec 0 (i_distance i (i_zmax i)) (boxsize box) (boxcenter box)) (in_frame ra dec 0) (bc_cat box) pos) ->
  (i_generate i = true -> forall k region ra dec many t, nth_error regions k = Some region -> photometric_region_center region = Ok (ra, dec) ->
     data_of inside i box region ra dec (79 + Z.of_nat k)%Z many t -> drawable inside i box m region ra dec (792 + Z.of_nat k)%Z many) ->
  exists fs, desi_script_on call_meant i regions = (fs, Ok tt) /\ map fst fs = flat_map (region_files i) regions.
Proof.
  intros inside i regions box n pos m Rd A Sm Sp Sl Sh Nd Rg P Em (a & e & Li) Wt Dr.
  assert (G : forall l pre, regions = (pre ++ l)%list -> exists fs, each (region_step call_meant i regions box) l = (fs, Ok tt)).
  { induction l as [|region l IH]; intros pre E; [exists []; reflexivity|]. cbn [each].
    assert (Ir : In region regions) by (rewrite E; apply in_or_app; right; left; auto).
    assert (Ni : ~ In region l) by (rewrite E in Nd; apply NoDup_remove_2 in Nd; intros I; apply Nd; apply in_or_app; auto).
    assert (L : last_index region regions = Some (Z.of_nat (List.length pre))) by (rewrite E; apply last_index_ok; auto).
    assert (Ec : exists ra dec, photometric_region_center region = Ok (ra, dec)) by (destruct (Rg region Ir) as [<-|[<-|[<-|[] ] ] ]; eexists _, _; reflexivity).
    destruct Ec as (ra & dec & Ec). destruct Li as (drange & B).
    destruct (cutsky_total i box n region ra dec (79 + Z.of_nat (List.length pre))%Z pos m _ _ _ Rd Sm P Em B (Wt _ _ _ Ir Ec) (Rg _ Ir)) as (cutsky & [c' px] & Eu & Ef). specialize (Ef (ex_intro _ inside A)).
    pose proof (data_ok inside i box n region ra dec _ cutsky c' px Rd A Sm Eu Ef) as D.
    destruct (IH (pre ++ [region])%list) as [fs2 E2]; [rewrite E, <- app_assoc; reflexivity|].
    assert (S : exists fs, region_step call_meant i regions box region = (fs, Ok tt)).
    { unfold region_step, seed_of, seed_mock, seed_randoms. rewrite Ec, L. cbn [io_ret io_bind bind]. rewrite Eu. cbn [io_ret io_bind bind]. rewrite Ef. cbn [io_ret io_bind bind].
      destruct (i_generate i) eqn:Gn; [|eexists; reflexivity].
      destruct (randoms_total inside i box n m region ra dec (792 + Z.of_nat (List.length pre))%Z (csize cutsky) a e Rd A Sl (Rg _ Ir) Em (ex_intro _ drange B)) as [ts Et].
      { refine (Dr eq_refl (List.length pre) region ra dec _ _ _ Ec D). rewrite E, nth_error_app2, Nat.sub_diag by lia. reflexivity. }
      rewrite Et. cbn [io_ret io_bind bind]. unfold write_randoms. destruct (is_bigfile i); eexists; reflexivity. }
    destruct S as [fs1 E1]. exists (fs1 ++ fs2)%list. rewrite E1. unfold io_bind. rewrite E2. reflexivity. }
  destruct (G regions [] eq_refl) as [fs E]. exists fs.
  assert (F : desi_script_on call_meant i regions = (fs, Ok tt)) by (unfold desi_script_on; rewrite (proj1 Rd); unfold io_ret, io_bind; rewrite E; reflexivity).
  split; [exact F|]. destruct (C100_names call_meant i regions fs (Ok tt) Sh F) as (rest & Q & Z0). rewrite (Z0 eq_refl), app_nil_r in Q. exact Q.
Qed.
Print Assumptions C100_succeeds.

(** ** A run *)
(** A box of side 1 with one object in its center, seen from distances 1 to 2. *)
Definition run_box : boxcat := BoxCat (pv_cat [vzero] [vzero]) (V 1 1 1) vzero.
Definition run : settings :=
  Settings "_tests" "y1" "dark" (Some 3%Z) "fits" true 1 2 [(0, 1, 5); (1, 2, 35); (2, 3, 95)] run_box (Ok [((1, 1, 1), []); ((1, 1, 1), [((1, 0, 0), (0, 1, 0), (0, 0, 1))%Z])]) (fun z => z) (fun _ => 3 / 2) 0 three 0 10
    (fun _ _ _ l => Ok (map (fun _ => true) l)) (Some (Regressis (fun _ => 0%nat) (fun _ _ => true))) (fun _ z => map (fun _ => 0) z) (fun _ _ => 1 / 2) (fun _ _ _ => repeat (1 / 2, 1 / 2, 1 / 2) 10) (fun _ _ _ => [(3 / 2, 1 / 2)]) (fun n => [n]) (fun k n => seq 0 n :: repeat [] (k - 1)).

Lemma run_wf : wf 1 (bc_cat run_box).
Proof.
  unfold wf, rows_ok, vectors_ok. cbn. split; [intros m x [H|[H|[] ] ]; injection H as <- <-; reflexivity|]. split; [intros m x [H|[H|[] ] ] _; injection H as <- <-; eauto|]. intuition discriminate.
Qed.
Lemma rotate_wf : forall n c k ax c', rotate c k ax = Ok c' -> wf n (bc_cat c) -> wf n (bc_cat c') /\ pc_position (bc_cat c') = pc_position (bc_cat c) /\ pc_velocity (bc_cat c') = pc_velocity (bc_cat c).
Proof.
  intros n c k ax c' H W. unfold rotate in H. destruct (iso_ok _) as [s|]; [|discriminate]. cbn [bind] in H. destruct (transform_vectors s (bc_cat c)) as [c2|] eqn:E; [|discriminate]. cbn [bind] in H. injection H as <-. cbn [bc_cat].
  split; [eapply tv_wf; eauto|]. unfold transform_vectors in E. destruct (map_cols _ _); [|discriminate]. injection E as <-. split; reflexivity.
Qed.
Lemma run_ready : exists box p, ready run box 1 /\ boxsize box = V 1 1 1 /\ boxcenter box = vzero /\ column (bc_cat box) (pc_position (bc_cat box)) = Some (ColV [p]) /\ contained (boxsize box) (boxcenter box) p.
Proof.
  assert (U : unimodular (1, 0, 0)%Z (0, 1, 0)%Z (0, 0, 1)%Z) by reflexivity.
  assert (Rc : forall x, 0 <= x -> Rmax 0 x = x) by (intros x Hx; apply Rmax_right; auto).
  assert (Gs : gram_schmidt (real (1, 0, 0)%Z) (real (0, 1, 0)%Z) (real (0, 0, 1)%Z) (V 1 0 0) (V 0 1 0) (V 0 0 1)).
  { cbn [real]. split; [reflexivity|]. split; [exists 0; vunfold; vsplit; ring|]. split; [exists 0, 0; vunfold; vsplit; ring|]. vunfold. repeat split; ring. }
  destruct (C23_lands_in_cuboid_partial (1, 0, 0)%Z (0, 1, 0)%Z (0, 0, 1)%Z _ _ _ (V 1 1 1) U Gs) as (cu & Ecu & L).
  { unfold positive; cbn; lra. }
  { unfold Remap_Spec.reach, vdot; cbn [vx vy vz]; rewrite !Rc by lra; lra. }
  { unfold Remap_Spec.reach, vdot; cbn [vx vy vz]; rewrite !Rc by lra; lra. }
  { unfold Remap_Spec.reach, vdot; cbn [vx vy vz]; rewrite !Rc by lra; lra. }
  destruct (cuboid_shape (1, 0, 0)%Z (0, 1, 0)%Z (0, 0, 1)%Z (V 1 1 1) U ltac:(unfold positive; cbn; lra)) as (cu' & e1 & e2 & e3 & Ecu' & G & _ & _ & _ & _ & Sz). rewrite Ecu in Ecu'. injection Ecu' as <-.
  cbn [real] in G. destruct (unit_sizes _ _ _ G) as (-> & -> & ->).
  assert (Es : cu_size cu = V 1 1 1).
  { rewrite Sz. assert (Q : forall x y w, x * x + y * y + w * w = 1 * 1 -> vnorm (V x y w) = 1) by (intros x y w Q; unfold vnorm, vdot; cbn [vx vy vz]; rewrite Q; apply sqrt_square; lra).
    unfold vmul. cbn [vx vy vz]. rewrite !Q; [reflexivity|ring|ring|ring]. }
  destruct (L (V (1 / 2) (1 / 2) (1 / 2))) as (y & Ey & Iy); [unfold in_box; cbn; lra|]. rewrite Es in Iy.
  assert (Er : exists c1, remap run_box (RVectors [real (1, 0, 0)%Z; real (0, 1, 0)%Z; real (0, 0, 1)%Z]) = Ok c1 /\ boxsize c1 = V 1 1 1 /\ boxcenter c1 = vzero /\
    column (bc_cat c1) "Position" = Some (ColV [vadd y (V (- (1 / 2)) (- (1 / 2)) (- (1 / 2)))]) /\ exists v, column (bc_cat c1) "Velocity" = Some (ColV [v])).
  { unfold remap. cbn [remap_cuboid run_box boxsize]. rewrite Ecu. unfold run_box, pv_cat, pcat_new. cbn [bind boxcenter bc_cat boxsize pc_data pc_position pc_velocity pc_vectors pc_invariants].
    match goal with |- context [map_cols ?f ?d] => assert (Ed : map_cols f d = Ok [("Position", ColV [vadd y (V (- (1 / 2)) (- (1 / 2)) (- (1 / 2)))]); ("Velocity", ColV [project cu vzero])]%string) end.
    { cbn [map_cols]. unfold mem. cbn [existsb String.eqb Ascii.eqb Bool.eqb orb List.app]. unfold remap_col, cu_transform. cbn [map map_result].
      replace (vsub vzero (vsub vzero (vscale (1 / 2) (V 1 1 1)))) with (V (1 / 2) (1 / 2) (1 / 2)) by (vunfold; vsplit; field). rewrite Ey. cbn [bind map]. rewrite Es.
      replace (vsub vzero (vscale (1 / 2) (V 1 1 1))) with (V (- (1 / 2)) (- (1 / 2)) (- (1 / 2))) by (vunfold; vsplit; field). reflexivity. }
    rewrite Ed. cbn [bind]. eexists. split; [reflexivity|]. cbn [boxsize boxcenter bc_cat]. split; [exact Es|]. split; [reflexivity|]. split; [reflexivity|]. eexists. reflexivity. }
  destruct Er as (c1 & Er & Sc & Cc & Cp & (v & Cv)). destruct (remap_wf _ _ _ _ Er run_wf) as (W1 & _ & Pp & Pv & _).
  assert (D0 : forall x, depth_first (V x x x) = V x x x) by reflexivity.
  destruct (C74_turned (i_lattice run) (1, 1, 1) [] (1, 1, 1) (1, 0, 0)%Z (0, 1, 0)%Z (0, 0, 1)%Z [] [] run_box c1 eq_refl Er) as (c' & Eb & Sb & Cb & _ & Cols & _); [rewrite Sc; cbn; lra|rewrite Sc; cbn; lra|rewrite Sc; cbn; lra|].
  rewrite Sc in Sb. rewrite Cc in Cb. change (depth_first (V 1 1 1)) with (V 1 1 1) in Sb. change (depth_first vzero) with vzero in Cb.
  assert (W' : wf 1 (bc_cat c') /\ pc_position (bc_cat c') = "Position"%string /\ pc_velocity (bc_cat c') = "Velocity"%string).
  { pose proof Eb as E. unfold remap_the_box in E. cbn [i_lattice run bind map nth_error snd] in E. change (vec_of (1, 0, 0)%Z) with (real (1, 0, 0)%Z) in E. change (vec_of (0, 1, 0)%Z) with (real (0, 1, 0)%Z) in E. change (vec_of (0, 0, 1)%Z) with (real (0, 0, 1)%Z) in E.
    rewrite Er in E. cbn [bind] in E. destruct (rotate c1 1 (AxStr "y")) as [c2|] eqn:E2; [|discriminate]. cbn [bind] in E. destruct (rotate_wf _ _ _ _ _ E2 W1) as (W2 & P2 & V2). destruct (rotate_wf _ _ _ _ _ E W2) as (W3 & P3 & V3).
    rewrite P3, V3, P2, V2, Pp, Pv. split; [exact W3|]. split; reflexivity. }
  destruct W' as (W' & Pp' & Pv').
  pose proof (Cols _ _ Cp ltac:(cbn; auto)) as Cp'. pose proof (Cols _ _ Cv ltac:(cbn; auto)) as Cv'. cbn [map] in Cp', Cv'.
  exists c', (depth_first (vadd y (V (- (1 / 2)) (- (1 / 2)) (- (1 / 2))))).
  assert (Ct : contained (boxsize c') (boxcenter c') (depth_first (vadd y (V (- (1 / 2)) (- (1 / 2)) (- (1 / 2)))))).
  { rewrite Sb, Cb. destruct y as [y1 y2 y3]. unfold in_box in Iy. cbn in Iy. unfold contained, depth_first, vadd, vzero. cbn. repeat split; apply Rabs_le; lra. }
  split; [|split; [exact Sb|split; [exact Cb|split; [rewrite Pp'; exact Cp'|exact Ct] ] ] ].
  split; [exact Eb|]. split; [exact W'|]. rewrite Sb at 1 2 3 4. cbn [vx vy vz i_distance i_zmax run]. split; [lra|]. split; [lra|]. split; [lra|]. rewrite Pp', Pv'. split; [|eauto].
  exists [depth_first (vadd y (V (- (1 / 2)) (- (1 / 2)) (- (1 / 2))))]. split; [exact Cp'|]. intros q [<-|[] ]. exact Ct.
Qed.
Lemma run_limits : exists dr, box_to_cutsky (V 1 1 1) 2 1 = Ok (dr, (- rad2deg (asin (1 / 4)), rad2deg (asin (1 / 4))), (- rad2deg (asin (1 / 4)), rad2deg (asin (1 / 4)))) /\ 0 < rad2deg (asin (1 / 4)) <= 30.
Proof.
  pose proof PI_RGT_0 as P. pose proof (asin_bound (1 / 4)) as Ab. assert (Sa : sin (asin (1 / 4)) = 1 / 4) by (apply sin_asin; lra).
  assert (A0 : 0 < asin (1 / 4)). { destruct (Rlt_le_dec 0 (asin (1 / 4))) as [|N]; auto. exfalso. assert (sin (asin (1 / 4)) <= sin 0) by (apply sin_incr_1; lra). rewrite sin_0 in H. lra. }
  assert (A1 : asin (1 / 4) <= PI / 6). { destruct (Rle_lt_dec (asin (1 / 4)) (PI / 6)) as [|N]; auto. exfalso. assert (sin (PI / 6) <= sin (asin (1 / 4))) by (apply sin_incr_1; lra). rewrite sin_PI6 in H. lra. }
  assert (C : 0 < cos (asin (1 / 4))) by (apply cos_gt_0; lra).
  exists (1 / cos (asin (1 / 4)), 2). split.
  - unfold box_to_cutsky. cbn [vx vy vz]. destruct (Rle_dec (2 - 1) 0); [lra|]. replace (Rltb 1 1) with false by (symmetry; apply Rltb_false; lra).
    unfold btc_outside. destruct (Rlt_dec (sqrt ((2 - 1) ^ 2 + (1 / 2) ^ 2)) 2) as [L|L].
    2: { exfalso. apply L. rewrite <- (sqrt_square 2) at 3 by lra. apply sqrt_lt_1; lra. }
    unfold fdiv. destruct (Req_EM_T 2 0); [lra|]. cbn [bind]. replace (1 / 2 / 2) with (1 / 4) by lra. rewrite np_arcsin_ok by lra. cbn [bind].
    destruct (Req_EM_T (cos (asin (1 / 4))) 0); [lra|]. cbn [bind]. replace (2 - 1) with 1 by lra. destruct (Req_EM_T (1 / cos (asin (1 / 4))) 0) as [Z|_].
    { exfalso. assert (1 / cos (asin (1 / 4)) * cos (asin (1 / 4)) = 1) by (field; lra). rewrite Z in H. lra. }
    cbn [bind]. replace (1 / (1 / cos (asin (1 / 4)))) with (cos (asin (1 / 4))) by (field; lra).
    unfold np_arccos. destruct (Rle_dec (Rabs (cos (asin (1 / 4)))) 1) as [_|N].
    2: { exfalso; apply N. apply Rabs_le. pose proof (COS_bound (asin (1 / 4))). lra. }
    cbn [bind]. rewrite acos_cos by lra. rewrite Rmin_left by lra. reflexivity.
  - unfold rad2deg. split; [apply Rmult_lt_0_compat; [lra|apply Rinv_0_lt_compat; lra]|]. apply Rmult_le_reg_r with PI; [lra|]. replace (asin (1 / 4) * 180 / PI * PI) with (asin (1 / 4) * 180) by (field; lra). lra.
Qed.
Lemma run_sky : sky_area (i_desi run) (fun _ _ _ _ => true).
Proof. intros release program npasses l. reflexivity. Qed.
Lemma run_splits : splits (i_split run).
Proof. intros n. cbn. lia. Qed.
Lemma run_shares : shares (i_share run).
Proof.
  intros k n K. cbn [i_share run]. split; [cbn [List.length]; rewrite repeat_length; lia|]. cbn [List.concat]. assert (E : forall j, List.concat (repeat (@nil nat) j) = []) by (induction j; auto). rewrite E, app_nil_r. reflexivity.
Qed.
(** The hypotheses of C100_files and C100_succeeds are met: a run of two regions with randoms, which leaves twenty-two files. *)
Example C100_case : exists box fs, ready run box 1 /\ desi_script_on call_meant run ["N"; "DN"]%string = (fs, Ok tt) /\ List.length fs = 22%nat /\ hd_error (map fst fs) = Some "_tests/data-cutsky-y1-dark-3-N.fits"%string.
Proof.
  destruct run_ready as (box & p & Rd & Sb & Cb & Cp & Ct). destruct case_mask as (m & Em & P1 & _). destruct run_limits as (dr & B & Bd). exists box.
  assert (Sm : forall s z, List.length (i_smear run s z) = List.length z) by (intros s z; apply map_length).
  assert (Nd : NoDup ["N"; "DN"]%string) by (constructor; [intros [H|[] ]; discriminate|constructor; [easy|constructor] ]).
  destruct (C100_succeeds (fun _ _ _ _ => true) run ["N"; "DN"]%string box 1 [p] m Rd run_sky Sm three_splines run_splits run_shares Nd) as (fs & E & N); auto.
  - intros region [<-|[<-|[] ] ]; cbn; auto.
  - exists (rad2deg (asin (1 / 4))), (rad2deg (asin (1 / 4))), dr. rewrite Sb. exact B.
  - intros region ra dec _ _. destruct Rd as (_ & W & X & _ & _ & _ & (vel & Vl)). exists vel. split; [exact Vl|]. intros k q v Hq _. destruct k as [|k]; [|destruct k; discriminate]. injection Hq as <-.
    change (i_factor run) with 0. rewrite Rmult_0_l, Rplus_0_r. intros Z0. apply vdot_self_zero in Z0. revert Z0. apply (C86_front ra dec 0 _ (boxsize box) (boxcenter box) p Ct). lra.
  - intros _ k region ra dec many t Hk Ec (placed & sky & z & m' & idx & (obs & M & O & Os) & (Lz & Vz) & Em' & (all & Sa & La & Ia) & _).
    assert (m' = m) by (change (nz_mask three 0 (fun x => x) [(0, 1, 5); (1, 2, 35); (2, 3, 95)] 1 2 = Ok m') in Em'; rewrite Em in Em'; injection Em' as <-; reflexivity). subst m'.
    assert (Ls : List.length sky = 1%nat).
    { pose proof (on_sky_length _ _ Os) as L. destruct O as (pos & vel & Pq & _ & [Lo _]). destruct Rd as (_ & (_ & _ & Ip & Ni & _) & _). destruct M as (_ & Ep & _ & Mp & _).
      rewrite Ep, (Mp _ _ Cp (conj Ip Ni)) in Pq. injection Pq as <-. cbn in Lo. lia. }
    rewrite Ls in Lz, Vz. destruct sky as [|x [|] ]; try discriminate. destruct z as [|z0 [|] ]; try discriminate. specialize (Vz 0%nat ltac:(lia)). cbn in Vz.
    assert (M1 : many = 1%nat).
    { rewrite <- La. assert (I0 : In 0%nat all) by (apply Ia; split; [cbn; lia|]; cbn [nth]; rewrite Vz; replace (3 / 2 + 0) with (3 / 2) by ring; rewrite P1; cbn; lra).
      assert (Io : forall j, In j all -> j = 0%nat) by (intros j Hj; apply Ia in Hj; destruct Hj as [Hj _]; cbn in Hj; lia).
      clear - Sa I0 Io. destruct all as [|a l]; [destruct I0|]. destruct l as [|b l]; auto. exfalso. inversion Sa as [|? ? _ F]; subst. inversion F; subst. assert (a = 0%nat) by (apply Io; left; auto). assert (b = 0%nat) by (apply Io; right; left; auto). lia. }
    clear La. subst many. split; [lia|]. split; [cbn; lia|]. split; [intros ? ? ? ? ? I; apply repeat_spec in I; injection I as -> -> ->; unfold unit_number; lra|].
    split; [intros k' r Hr; cbn in Hr; assert (r = 0%nat) by lia; subst r; reflexivity|]. split.
    + intros a e (dr' & Li). cbn [i_distance run i_zmin i_zmax] in Li. rewrite Sb, B in Li. injection Li as _ _ <- _ <-. set (w := rad2deg (asin (1 / 4))) in *.
      assert (Hc : 190 <= ra <= 194 /\ 0 <= dec <= 60) by (destruct k as [|[|k] ]; cbn in Hk; [injection Hk as <-; cbn in Ec|injection Hk as <-; cbn in Ec|destruct k; discriminate]; injection Ec as <- <-; lra).
      split; [lra|]. split; [lra|]. split.
      { intros (_ & j & k' & (A1 & A2) & A3). assert (I : forall z : BinNums.Z, IZR z <= -1 \/ IZR z = 0 \/ 1 <= IZR z) by (intros q; assert (C : (q <= -1 \/ q = 0 \/ 1 <= q)%Z) by lia; destruct C as [C|[->|C] ]; [left; apply (IZR_le q (-1)); auto|auto|right; right; apply (IZR_le 1 q); auto]).
        destruct (I k') as [K|[K|K] ], (I j) as [J|[J|J] ]; lra. }
      intros out Eo. destruct (random_shape _ _ _ _ _ _ _ _ Eo) as [Lo _]. assert (Tot : List.length (List.concat out) = 10%nat) by (rewrite <- total_map, Lo; reflexivity).
      destruct (List.concat out) as [|o l]; [discriminate|]. exists o. split; [left; auto|]. split; [reflexivity|].
      destruct k as [|[|k] ]; cbn in Hk; [injection Hk as <-|injection Hk as <-|destruct k; discriminate]; eexists; split; reflexivity.
    + intros k'. exists 0%nat, (3 / 2), (1 / 2). split; [cbn; lia|]. split; [left; reflexivity|]. rewrite P1. lra.
  - exists fs. split; [exact Rd|]. split; [exact E|]. split; [rewrite <- (map_length fst), N; reflexivity|rewrite N; reflexivity].
Qed.
Print Assumptions C100_case.
