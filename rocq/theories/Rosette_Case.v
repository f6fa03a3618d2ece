(** A run of the script that ends well, for C86. *)
Require Import Reals Lra Lia ZArith String List Bool Sorted Permutation.
From Verif Require Import Base Vec3 Isometry_Model Isometry_Spec Isometry_Proof Sky_Model Sky_Spec Sky_Proof Cutsky_Model Cutsky_Spec Box_Model Box_Spec Box_Proof Box_Proof2 Box_Proof3 Box_Proof4 Remap_Model Remap_Spec Remap_Proof Remap_Proof4 Remap_Thm Rsd_Spec Rsd_Thm Mask_Model FA_Model Region_Model Script_Model Script_Thm.
From Verif Require Import Law_Spec SV3_Model SV3_Thm Rosette_Model Rosette_Spec Rosette_Proof Rosette_Proof2 Rosette_Proof3 Rosette_Proof4 Rosette_Proof5 Rosette_Proof6 Rosette_Thm.
Import ListNotations.
Open Scope R_scope.

Definition case_box : boxcat := BoxCat (pv_cat [V 1 1 1] [vzero]) (V 10 10 10) vzero.
Definition case_inputs : inputs :=
  Inputs (Some "_tests"%string) [Group [7%Z] (Ok [V 1 0 0; V 0 1 0; V 0 0 1]) 30; Group [5%Z] (Ok [V 1 0 0; V 0 1 0; V 0 0 1]) 0] [(7%Z, [70%Z]); (5%Z, [50%Z; 51%Z])] sv3_table
    [(70%Z, (0, 0)); (50%Z, (0, 0)); (51%Z, (0, 0))] (fun tiles points => map (fun p => existsb (fun _ => true) tiles) points) (fun _ _ => 1) (fun _ => 1%nat) (41 / 2) (fun d => d) (fun _ => case_box) 2 case_box
    (fun _ _ _ _ => 1 / 2) (fun _ _ _ => 1 / 2).
Lemma case_wf : wf 1 (bc_cat case_box).
Proof.
  unfold wf, rows_ok, vectors_ok. cbn. split; [intros m x [H|[H|[] ] ]; injection H as <- <-; reflexivity|]. split; [intros m x [H|[H|[] ] ] _; injection H as <- <-; eauto|]. intuition discriminate.
Qed.
Lemma unit_sizes : forall e1 e2 e3, gram_schmidt (V 1 0 0) (V 0 1 0) (V 0 0 1) e1 e2 e3 -> e1 = V 1 0 0 /\ e2 = V 0 1 0 /\ e3 = V 0 0 1.
Proof.
  intros e1 e2 e3 (-> & (a & ->) & (b & c & ->) & A & B & C). vunfold. cbn [vx vy vz] in *.
  assert (a = 0) by lra. assert (b = 0) by lra. subst. assert (c = 0) by lra. subst. split; [reflexivity|]. split; vsplit; ring.
Qed.
(** No rotated lattice point falls on the observer: its squared distance would be an integer. *)
Lemma case_remap : exists c1 p, remap case_box (RVectors [V 1 0 0; V 0 1 0; V 0 0 1]) = Ok c1 /\ boxsize c1 = V 10 10 10 /\ boxcenter c1 = vzero /\
  column (bc_cat c1) "Position" = Some (ColV [p]) /\ column (bc_cat c1) "Velocity" = Some (ColV [vzero]) /\ pc_position (bc_cat c1) = "Position"%string /\ pc_velocity (bc_cat c1) = "Velocity"%string /\
  vadd (V (41 / 2 - 5) 0 0) (vsub p vzero) <> vzero.
Proof.
  assert (U : unimodular (1, 0, 0)%Z (0, 1, 0)%Z (0, 0, 1)%Z) by reflexivity.
  destruct (remap_thm case_box (1, 0, 0)%Z (0, 1, 0)%Z (0, 0, 1)%Z 10 U ltac:(lra) eq_refl) as (c1 & m & E & Rm & Ec & _ & _ & Mp & Mv & _).
  - exact (proj1 (proj2 case_wf)).
  - intros n l p K [_ NI] I. unfold column in K. cbn [bc_cat case_box pv_cat pcat_new pc_data lookup] in K. destruct (String.eqb n "Position"); [|destruct (String.eqb n "Velocity") eqn:En; [|discriminate] ].
    + injection K as <-. destruct I as [<-|[] ]. unfold contained. cbn. unfold Rabs. repeat destruct (Rcase_abs _); repeat split; lra.
    + exfalso. apply NI. apply String.eqb_eq in En. subst. cbn. auto.
  - repeat constructor; cbn; intuition discriminate.
  - cbn [real] in E. pose proof E as E'. destruct (Mp "Position"%string [V 1 1 1] eq_refl) as (l' & Cl & Fl); [split; cbn; intuition discriminate|]. inversion Fl as [|? p ? l0 [k Hk] Fn]; subst. inversion Fn; subst.
    specialize (Mv "Velocity"%string [vzero] eq_refl ltac:(cbn; auto) ltac:(cbn; auto)). cbn [map] in Mv. replace (mapply m vzero) with vzero in Mv by (destruct m as [[? ? ?] [? ? ?] [? ? ?] ]; unfold mapply; vunfold; vsplit; ring).
    destruct (remap_wf _ _ _ _ E' case_wf) as (_ & _ & Pp & Pv & _).
    destruct (cuboid_shape (1, 0, 0)%Z (0, 1, 0)%Z (0, 0, 1)%Z (V 10 10 10) U ltac:(unfold positive; cbn; lra)) as (cu & e1 & e2 & e3 & Ecu & G & _ & _ & _ & _ & Sz). cbn [real] in Ecu, G.
    destruct (unit_sizes _ _ _ G) as (-> & -> & ->).
    assert (Eb : boxsize c1 = V 10 10 10).
    { unfold remap in E'. cbn [remap_cuboid] in E'. cbn [case_box boxsize] in E'. rewrite Ecu in E'. cbn [bind] in E'. destruct (map_cols _ _); [|discriminate]. injection E' as <-. cbn [boxsize]. rewrite Sz.
      assert (Q : forall x y w, x * x + y * y + w * w = 10 * 10 -> vnorm (V x y w) = 10) by (intros x y w Q; unfold vnorm, vdot; cbn [vx vy vz]; rewrite Q; apply sqrt_square; lra).
      unfold vmul. cbn [vx vy vz]. rewrite !Q; [reflexivity|ring|ring|ring]. }
    exists c1, p. split; [exact E'|]. split; [exact Eb|]. split; [exact Ec|]. split; [exact Cl|]. split; [exact Mv|]. split; [exact Pp|]. split; [exact Pv|].
    intros Z0. rewrite Eb, Ec in Hk. cbn [case_box boxcenter boxsize] in Hk. destruct k as [[k1 k2] k3]. cbn [real] in Hk.
    assert (Hp : p = V (- (31 / 2)) 0 0) by (destruct p as [x y w]; unfold vadd, vsub, vopp, vzero in Z0; cbn [vx vy vz] in Z0; injection Z0 as A B C; f_equal; lra). subst p.
    match type of Hk with ?a = mapply m ?b => assert (Q : vdot a a = vdot b b) end.
    { rewrite Hk. rewrite vdot_mapply, <- mapply_mul, (is_rotation_trans m Rm), mapply_id. reflexivity. }
    unfold vdot, vadd, vsub, vopp, vscale, vzero in Q. cbn [vx vy vz] in Q.
    assert (Q' : IZR (4 * ((6 + 10 * k1) * (6 + 10 * k1) + (6 + 10 * k2) * (6 + 10 * k2) + (6 + 10 * k3) * (6 + 10 * k3))) = IZR 641) by (rewrite !mult_IZR, !plus_IZR, !mult_IZR, !plus_IZR, !mult_IZR; lra).
    apply eq_IZR in Q'. lia.
Qed.
Lemma case_tiles : tile_lookup (fun _ _ => true) (i_in_desi case_inputs).
Proof. intros tiles points. reflexivity. Qed.
Lemma case_group : forall g angle ids region factor d ra dec t, g = Group (g_rosettes g) (Ok [V 1 0 0; V 0 1 0; V 0 0 1]) angle -> 0 < d -> 0 <= ra < 360 -> -90 < dec < 90 -> In t (i_tiles case_inputs) -> In (fst t) ids ->
  exists cat, group_catalog case_inputs g (sky_point d ra dec) ids region factor (fun _ => 1 / 2) case_box = Ok cat /\ csize cat = 1%nat.
Proof.
  intros g angle ids region factor d ra dec t Eg Hd Hra Hdec It Iid. destruct case_remap as (c1 & p & Er & Eb & Ec & Cp & Cv & Pp & Pv & NZ).
  assert (F0 : forall q, In q [p] -> seen ra dec (g_angle g) (41 / 2) (boxsize c1) (boxcenter c1) q <> vzero).
  { intros q [<-|[] ] E. apply NZ. rewrite Eb, Ec in E. unfold seen in E. cbn [vx] in E. replace (41 / 2 - 10 / 2) with (41 / 2 - 5) in E by lra.
    set (w := vadd (V (41 / 2 - 5) 0 0) (vsub p vzero)) in *. destruct (frame_coords ra dec (g_angle g) w) as (A & B & C). rewrite E in A, B, C.
    assert (Z0 : forall v, vdot vzero v = 0) by (intros v; unfold vdot, vzero; cbn; ring). rewrite !Z0 in A, B, C. destruct w as [x y k]. cbn in A, B, C. subst. reflexivity. }
  destruct (C86_group (fun _ _ => true) case_inputs g [V 1 0 0; V 0 1 0; V 0 0 1] d ra dec ids region factor (fun _ => 1 / 2) case_box c1 1 [p]) as (placed & obs & idx & cat & E & M & O & Rc & _); auto using case_tiles, case_wf.
  - rewrite Eg. reflexivity.
  - rewrite Eb. cbn. lra.
  - rewrite Eb. cbn. lra.
  - rewrite Eb. cbn. lra.
  - rewrite Eb. unfold fits_in. cbn [i_dmax case_inputs vx vy vz]. rewrite Rmax_left by lra. rewrite <- (sqrt_square (41 / 2)) at 2 by lra. apply sqrt_lt_1; lra.
  - rewrite Pp. exact Cp.
  - destruct factor as [a|]; cbn [watched]; [|exact Pp]. exists [vzero]. rewrite Pv. split; [exact Cv|]. intros k q v Hq Hv. destruct k as [|k]; [|destruct k; discriminate]. cbn in Hq, Hv. injection Hq as <-. injection Hv as <-.
    assert (Z0 : in_frame ra dec (g_angle g) vzero = vzero) by (unfold in_frame; vunfold; vsplit; ring). rewrite Z0. assert (Z1 : forall v, vdot v vzero = 0) by (intros v; unfold vdot, vzero; cbn; ring). rewrite Z1, Rmult_0_r, Rplus_0_r.
    intros Z2. apply (F0 p (or_introl eq_refl)). apply vdot_self_zero. exact Z2.
  - exists cat. split; [exact E|]. destruct Rc as (sky & Os & Si & Ix & _ & Cra & _).
    assert (Lo : List.length obs = 1%nat).
    { destruct M as (_ & P1 & _ & Mp & _). assert (Cq : column placed "Position" = Some (ColV (map (seen ra dec (g_angle g) (i_dmax case_inputs) (boxsize c1) (boxcenter c1)) [p]))).
      { apply Mp; [exact Cp|]. destruct (remap_wf _ _ _ _ Er case_wf) as ((_ & _ & A & B & _) & _). rewrite Pp in A, B. split; auto. }
      destruct factor as [a|]; cbn [observed_at] in O.
      - destruct O as (pos & vel & A & _ & [L _]). rewrite P1, Pp, Cq in A. injection A as <-. rewrite L. reflexivity.
      - rewrite Cq in O. injection O as <-. reflexivity. }
    pose proof (on_sky_length _ _ Os) as Ls. rewrite Lo in Ls. destruct sky as [|[[dd rr] ee] [|] ]; try discriminate. clear Ls.
    assert (Ei : idx = [0%nat]).
    { assert (I0 : In 0%nat idx) by (apply Ix; exists dd, rr, ee; split; [reflexivity|]; split; [exists t; auto|cbn; lra]).
      assert (Io : forall j, In j idx -> j = 0%nat) by (intros [|j] Hj; auto; apply Ix in Hj; destruct Hj as (a & b & c & Q & _); destruct j; discriminate).
      clear - Si I0 Io. destruct idx as [|a l]; [destruct I0|]. assert (a = 0%nat) by (apply Io; left; auto). subst. destruct l as [|b l]; auto. exfalso. inversion Si as [|? ? _ F]; subst. inversion F; subst. assert (b = 0%nat) by (apply Io; right; left; auto). lia. }
    rewrite Ei in Cra. cbn in Cra.
    assert (W : rows_ok (csize cat) cat).
    { unfold group_catalog in E. destruct (g_vectors g) as [vs|]; [|discriminate]. cbn [bind] in E. destruct (place_box _ _ _ _ _) as [c2|]; [|discriminate]. cbn [bind] in E.
      destruct (observe _ _ _) as [c3|]; [|discriminate]. cbn [bind] in E. unfold cut_rosette in E. destruct (get_num "RA" _); [|discriminate]. cbn [bind] in E. destruct (get_num "DEC" _); [|discriminate]. cbn [bind] in E. destruct (get_num "Z" _); [|discriminate]. cbn [bind] in E.
      destruct (mask_and _ _) as [mask|]; [|discriminate]. cbn [bind] in E. apply select_rows_out in E. destruct E as [E _]. apply (rows_csize' _ _ E). }
    specialize (W "RA"%string _ (lookup_In _ _ _ Cra)). cbn in W. auto.
Qed.
(** The hypotheses of C86_files, C86_names, C86_succeeds and C86_number are met: a run of two mocks (the first with randoms, the last without) on one group in each region. *)
Example C86_case : exists fs, sv3_script case_inputs false 19 21 = (fs, Ok tt) /\ List.length fs = 6%nat.
Proof.
  assert (Rg : Forall2 (in_region (i_directions case_inputs)) (i_groups case_inputs) ["N"; "S"]%string).
  { constructor; [|constructor; [|constructor] ]; (split; [discriminate|]); intros r [<-|[] ]; eexists _, _; (split; [reflexivity|]).
    - rewrite (proj2 (Rltb_true _ _)) by lra. reflexivity.
    - rewrite (proj2 (Rltb_false _ _)) by lra. reflexivity. }
  assert (Mk : forall imock b, (exists cat, made case_inputs imock b (Group [7%Z] (Ok [V 1 0 0; V 0 1 0; V 0 0 1]) 30) "N" cat /\ csize cat = 1%nat) /\ (exists cat, made case_inputs imock b (Group [5%Z] (Ok [V 1 0 0; V 0 1 0; V 0 0 1]) 0) "S" cat /\ csize cat = 1%nat)).
  { intros imock b. split.
    - destruct (proj1 (C86_los (2178 / 10) (344 / 10) ltac:(lra))) as (d & ra & dec & El & Hd & Hra & Hdec & _).
      destruct (case_group (Group [7%Z] (Ok [V 1 0 0; V 0 1 0; V 0 0 1]) 30) 30 [70%Z] "N" (if b then Some 2 else None) d ra dec (70%Z, (0, 0)) eq_refl Hd Hra Hdec (or_introl eq_refl) (or_introl eq_refl)) as (cat & E & C).
      exists cat. split; [|exact C]. exists [70%Z], [(2178 / 10, 344 / 10)], (sky_point d ra dec). split; [reflexivity|]. split; [reflexivity|]. split; [exact El|]. destruct b; exact E.
    - destruct (proj1 (C86_los 210 5 ltac:(lra))) as (d & ra & dec & El & Hd & Hra & Hdec & _).
      destruct (case_group (Group [5%Z] (Ok [V 1 0 0; V 0 1 0; V 0 0 1]) 0) 0 [50%Z; 51%Z] "S" (if b then Some 2 else None) d ra dec (50%Z, (0, 0)) eq_refl Hd Hra Hdec (or_intror (or_introl eq_refl)) (or_introl eq_refl)) as (cat & E & C).
      exists cat. split; [|exact C]. exists [50%Z; 51%Z], [(210, 5)], (sky_point d ra dec). split; [reflexivity|]. split; [reflexivity|]. split; [exact El|]. destruct b; exact E. }
  destruct (C86_succeeds case_inputs "_tests" ["N"; "S"]%string 19 21 eq_refl Rg) as [fs E].
  - intros imock _. destruct (Mk imock true) as [(c7 & M7 & C7) (c5 & M5 & C5)]. exists [([7%Z], "N"%string, c7); ([5%Z], "S"%string, c5)]. cbn [combine i_groups case_inputs]. split; [|split].
    + constructor; [cbn; auto|constructor; [cbn; auto|constructor] ].
    + intros _ x [<-|[<-|[] ] ]; destruct (Mk imock false) as [(r7 & N7 & _) (r5 & N5 & _)]; eauto.
    + intros region [<-|[<-|[] ] ]; unfold region_total; cbn; rewrite ?C7, ?C5; lia.
  - exists fs. split; [exact E|]. destruct (C86_names case_inputs 19 21 fs tt "_tests" _ eq_refl E (written_eq _ _ _ _)) as [P _]. apply Permutation_length in P. rewrite map_length in P. rewrite P. reflexivity.
Qed.
Print Assumptions C86_case.
