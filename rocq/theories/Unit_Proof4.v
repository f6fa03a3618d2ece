(** Change of unit: cut skies of a catalog, random catalogs. *)
Require Import Reals Lra Lia ZArith String List Bool FunctionalExtensionality.
From Verif Require Import Base Vec3 Isometry_Model Sky_Model Cutsky_Model Box_Model Rsd_Model Mock_Model Mesh_Model Remap_Model Mask_Model Sample_Model Random_Model Unit_Spec Density_Proof Ens_Proof Unit_Proof Unit_Proof2 Unit_Proof3.
Import ListNotations.
Open Scope R_scope.

Section Proof.
  Variable s : R.
  Hypothesis Hs : 0 < s.
  Local Notation vs := (vscale s).

  (** Sub-boxes. *)
  Lemma cut_centers_scale : forall l c b em im,
    cut_centers (s * l) (s * c) (s * b) (option_map (Rmult s) em) (option_map (Rmult s) im) = result_map (map (Rmult s)) (cut_centers l c b em im).
  Proof.
    intros. unfold cut_centers. cbv zeta.
    assert (O : forall m, match option_map (Rmult s) m with Some m => m | None => 0 end = s * match m with Some m => m | None => 0 end) by (intros [m|]; cbn; ring).
    rewrite !O. set (e := match em with Some m => m | None => 0 end). set (i := match im with Some m => m | None => 0 end).
    replace (s * l - 2 * (s * e) + s * i) with (s * (l - 2 * e + i)) by ring. replace (s * b + s * i) with (s * (b + i)) by ring.
    rewrite (fdiv_scale s Hs), map_bind. apply bind_ext. intros q. set (n := Rtrunc q).
    assert (E : match option_map (Rmult s) em, option_map (Rmult s) im with
                | None, None => do t <- fdiv (s * l - s * b * IZR n) (IZR n + 1); Ok (t, t)
                | None, Some _ => Ok (s * i, s * i) | Some _, None => Ok (s * e, s * e) | Some _, Some _ => Ok (s * e, s * i) end =
      result_map (fun x => (s * fst x, s * snd x)) match em, im with
                | None, None => do t <- fdiv (l - b * IZR n) (IZR n + 1); Ok (t, t)
                | None, Some _ => Ok (i, i) | Some _, None => Ok (e, e) | Some _, Some _ => Ok (e, i) end).
    { destruct em, im; cbn [option_map result_map fst snd]; auto. replace (s * l - s * b * IZR n) with (s * (l - b * IZR n)) by ring.
      rewrite (fdiv_out s), bind_map, map_bind. apply bind_ext. reflexivity. }
    rewrite E, bind_map, map_bind. apply bind_ext. clear E O e i. intros [e i]. cbn [fst snd].
    assert (P : forall a, Rltb 0 (s * a) = Rltb 0 a) by (intros; rewrite <- (Rmult_0_r s) at 1; apply (Rltb_scale s Hs)).
    rewrite !(Rltb_scale0 s Hs), !P. destruct (Rltb e 0 || Rltb i 0); auto.
    replace (s * l - s * b * IZR n) with (s * (l - b * IZR n)) by ring. replace (s * i * (IZR n - 1) + 2 * (s * e)) with (s * (i * (IZR n - 1) + 2 * e)) by ring.
    rewrite (fdiv_scale s Hs).
    assert (E : (if Rltb 0 e || Rltb 0 i then do r <- fdiv (l - b * IZR n) (i * (IZR n - 1) + 2 * e); if Rltb r 1 then Err AssertionError else Ok (r * (s * e), r * (s * i)) else Ok (s * e, s * i)) =
      result_map (fun x => (s * fst x, s * snd x)) (if Rltb 0 e || Rltb 0 i then do r <- fdiv (l - b * IZR n) (i * (IZR n - 1) + 2 * e); if Rltb r 1 then Err AssertionError else Ok (r * e, r * i) else Ok (e, i))).
    { destruct (Rltb 0 e || Rltb 0 i); auto. rewrite map_bind. apply bind_ext. intros r. destruct (Rltb r 1); cbn; auto. do 2 f_equal; ring. }
    rewrite E, bind_map, map_bind. apply bind_ext. clear e i P E. intros [e i]. cbn [fst snd result_map]. rewrite map_map. f_equal. apply map_ext. intros j. lra.
  Qed.
  Lemma product3_scale : forall a b c, product3 (map (Rmult s) a) (map (Rmult s) b) (map (Rmult s) c) = map vs (product3 a b c).
  Proof.
    intros. unfold product3. rewrite <- flat_map_map. rewrite !flat_map_concat_map, map_map. f_equal. apply map_ext. intros x.
    rewrite <- flat_map_map. rewrite !flat_map_concat_map, map_map. f_equal. apply map_ext. intros y. rewrite !map_map. reflexivity.
  Qed.
  Lemma centre_then_scale : forall c o, centre_then (vs c) (iso_u s o) = result_map (iso_u s) (centre_then c o).
  Proof.
    intros. unfold centre_then. replace (ShVec (vopp (vs c))) with (shift_u s (ShVec (vopp c))) by (cbn [shift_u]; f_equal; vring).
    rewrite <- (new_iso_scale s) at 1. rewrite translation_scale, iso_ok_scale, <- surjective_pairing, bind_map, map_bind. apply bind_ext. intros i. cbn [result_map].
    rewrite <- concat_scale. reflexivity.
  Qed.
  Variable L : string -> bool.
  Lemma for_cutsky_scale : forall c d ra dec em im n,
    isometry_for_cutsky (boxcat_u s L c) (range_u s d) ra dec (margins_u s em) (margins_u s im) n = result_map (isos_u s) (isometry_for_cutsky c d ra dec em im n).
  Proof.
    intros. unfold isometry_for_cutsky. rewrite (cutsky_to_box_scale s), bind_map, map_bind. apply bind_ext. intros [b o]. cbn [fst snd].
    change (boxcenter (boxcat_u s L c)) with (vs (boxcenter c)). change (boxsize (boxcat_u s L c)) with (vs (boxsize c)).
    assert (G : forall n, (do l0 <- cut_centers (vx (vs (boxsize c))) (vx (vs (boxcenter c))) (vx (vs b)) (mg0 (margins_u s em)) (mg0 (margins_u s im));
      do l1 <- cut_centers (vy (vs (boxsize c))) (vy (vs (boxcenter c))) (vy (vs b)) (mg1 (margins_u s em)) (mg1 (margins_u s im));
      do l2 <- cut_centers (vz (vs (boxsize c))) (vz (vs (boxcenter c))) (vz (vs b)) (mg2 (margins_u s em)) (mg2 (margins_u s im));
      do n <- match n with Some n => if Nat.ltb (List.length l0 * List.length l1 * List.length l2) n then Err ValueError else Ok n | None => Ok (List.length l0 * List.length l1 * List.length l2)%nat end;
      do l <- map_result (fun x => centre_then x (iso_u s o)) (firstn n (product3 l0 l1 l2)); Ok (IsoList l)) =
      result_map (isos_u s) (do l0 <- cut_centers (vx (boxsize c)) (vx (boxcenter c)) (vx b) (mg0 em) (mg0 im);
      do l1 <- cut_centers (vy (boxsize c)) (vy (boxcenter c)) (vy b) (mg1 em) (mg1 im);
      do l2 <- cut_centers (vz (boxsize c)) (vz (boxcenter c)) (vz b) (mg2 em) (mg2 im);
      do n <- match n with Some n => if Nat.ltb (List.length l0 * List.length l1 * List.length l2) n then Err ValueError else Ok n | None => Ok (List.length l0 * List.length l1 * List.length l2)%nat end;
      do l <- map_result (fun x => centre_then x o) (firstn n (product3 l0 l1 l2)); Ok (IsoList l))).
    { intros k. cbn [vscale vx vy vz margins_u mg0 mg1 mg2].
      rewrite cut_centers_scale, bind_map, map_bind. apply bind_ext. intros l0. rewrite cut_centers_scale, bind_map, map_bind. apply bind_ext. intros l1.
      rewrite cut_centers_scale, bind_map, map_bind. apply bind_ext. intros l2. rewrite !map_length, map_bind. apply bind_ext. intros j.
      rewrite product3_scale, firstn_map, map_bind. rewrite (map_result_map (fun x => centre_then x o) (fun x => centre_then x (iso_u s o)) vs (iso_u s)) by (intros; apply centre_then_scale).
      rewrite bind_map. apply bind_ext. reflexivity. }
    destruct n as [[|[|n]]|]; [exact (G (Some 0%nat))| |exact (G (Some (S (S n))))|exact (G None)].
    rewrite centre_then_scale, bind_map, map_bind. apply bind_ext. reflexivity.
  Qed.

  (** Cut sky catalogs. *)
  Lemma set_col_scale : forall n c d, set_col n (if L n then col_u s c else c) (data_u s L d) = data_u s L (set_col n c d).
  Proof.
    intros n c d. induction d as [|[m x] d IH]; cbn [data_u map set_col fst snd]; auto. destruct (String.eqb_spec n m) as [->|]; cbn [data_u map fst snd]; auto.
    fold (data_u s L d). rewrite IH. reflexivity.
  Qed.
  Lemma names_scale : forall d, map fst (data_u s L d) = map fst d. Proof. intros. unfold data_u. rewrite map_map. reflexivity. Qed.
  Lemma mem_app : forall n a b, mem n (a ++ b) = mem n a || mem n b. Proof. intros. unfold mem. apply existsb_app. Qed.
  Lemma mem_filter : forall n (f : string -> bool) l, mem n (filter f l) = true -> mem n l = true.
  Proof.
    intros n f l H. unfold mem in *. apply existsb_exists in H. destruct H as (x & Hx & E). apply filter_In in Hx. apply existsb_exists. exists x. tauto.
  Qed.
  Lemma rdd_ok : forall c, lengths_ok L c -> lengths_ok L (pcat_new (pc_data c) (pc_position c) (pc_velocity c) (filter (fun n => mem n (map fst (pc_data c))) (pc_vectors c)) (pc_invariants c)).
  Proof.
    intros c [H K]. split; auto. unfold pcat_new; cbn [pc_vectors pc_invariants]. intros n M N. rewrite mem_app in M, N. apply orb_false_elim in N. destruct N as [N1 N2].
    apply orb_prop in M. destruct M as [M|M]. apply K; auto. eapply mem_filter; eauto.
    unfold mem in M, N2. cbn [existsb] in M, N2. destruct (String.eqb_spec n (pc_position c)) as [E|E]; [rewrite E; auto|]. cbn [orb] in M. rewrite orb_false_r in *. congruence.
  Qed.
  Local Notation rdd_lengths := (rdd_lengths L).
  Lemma from_isometry1_scale : forall c i mr ma rdd, lengths_ok L (bc_cat c) -> rdd_lengths rdd ->
    cutsky_from_isometry1 (boxcat_u s L c) (iso_u s i) (option_map (rmask_u s) mr) ma rdd = result_map (pcat_u s L) (cutsky_from_isometry1 c i mr ma rdd).
  Proof.
    intros c i mr ma rdd H R. unfold cutsky_from_isometry1. cbn [boxcat_u bc_cat pcat_u pc_data pc_position pc_velocity pc_vectors pc_invariants]. rewrite names_scale.
    set (cat := pcat_new (pc_data (bc_cat c)) (pc_position (bc_cat c)) (pc_velocity (bc_cat c)) (filter (fun n => mem n (map fst (pc_data (bc_cat c)))) (pc_vectors (bc_cat c))) (pc_invariants (bc_cat c))).
    assert (Hc : lengths_ok L cat) by (apply (rdd_ok (bc_cat c) H)).
    change (pcat_new (data_u s L (pc_data (bc_cat c))) (pc_position (bc_cat c)) (pc_velocity (bc_cat c)) (filter (fun n => mem n (map fst (pc_data (bc_cat c)))) (pc_vectors (bc_cat c))) (pc_invariants (bc_cat c)))
      with (pcat_u s L cat). cbv zeta. unfold cutsky_isometry. rewrite transform_vectors_scale by auto.
    destruct (transform_vectors i cat) as [t|e] eqn:T; cbn [bind result_map]; auto.
    assert (Ht : lengths_ok L t) by (eapply lengths_transform; eauto). rewrite position_scale, bind_map, map_bind by auto. apply bind_ext. intros pos.
    rewrite (map_result_map (cartesian_to_sky true) (cartesian_to_sky true) vs (fun x => (s * fst (fst x), snd (fst x), snd x))) by (intros; apply (sky_scale s Hs)).
    rewrite bind_map, map_bind. apply bind_ext. intros sky. rewrite !map_map. cbn [fst snd].
    rewrite <- (map_map (fun x => fst (fst x)) (Rmult s) sky). set (dist := map (fun x => fst (fst x)) sky). set (ra := map (fun x => snd (fst x)) sky). set (dec := map snd sky).
    set (t1 := match rdd with Some (nra, ndec, ndist) => PCat (set_col ndist (ColS dist) (set_col ndec (ColS dec) (set_col nra (ColS ra) (pc_data t)))) (pc_position t) (pc_velocity t) (pc_vectors t) (pc_invariants t) | None => t end).
    replace (match rdd with Some (nra, ndec, ndist) => PCat (set_col ndist (ColS (map (Rmult s) dist)) (set_col ndec (ColS dec) (set_col nra (ColS ra) (pc_data (pcat_u s L t)))))
      (pc_position (pcat_u s L t)) (pc_velocity (pcat_u s L t)) (pc_vectors (pcat_u s L t)) (pc_invariants (pcat_u s L t)) | None => pcat_u s L t end) with (pcat_u s L t1).
    2: { subst t1. destruct rdd as [[[nra ndec] ndist]|]; auto. destruct R as (R1 & R2 & R3). unfold pcat_u; cbn [pc_data pc_position pc_velocity pc_vectors pc_invariants].
         rewrite <- !set_col_scale, R1, R2, R3. reflexivity. }
    destruct mr as [mr|]; cbn [option_map].
    - unfold rmask_u. rewrite map_map. rewrite (map_ext (fun x => s * x / s) (fun x => x)) by (intros; apply (div_s s Hs)). rewrite map_id, map_bind. apply bind_ext. intros mask.
      apply select_rows_scale.
    - destruct ma; auto. apply select_rows_scale.
  Qed.
  Lemma from_isometry_scale : forall c i mr ma rdd, lengths_ok L (bc_cat c) -> rdd_lengths rdd -> rdd_lengths rdd_default ->
    cutsky_from_isometry (boxcat_u s L c) (isos_u s i) (option_map (rmask_u s) mr) ma rdd = result_map (map (pcat_u s L)) (cutsky_from_isometry c i mr ma rdd).
  Proof.
    intros c [i|l] mr ma rdd H R D; cbn [isos_u cutsky_from_isometry].
    - rewrite from_isometry1_scale, bind_map, map_bind by auto. apply bind_ext. reflexivity.
    - apply map_result_map. intros i. apply from_isometry1_scale; auto.
  Qed.

  (** Random catalogs. *)
  Lemma random_box_scale : forall rng b c csize nbar,
    random_box rng (vs b) (vs c) csize (option_map (fun n => n / s ^ 3) nbar) = result_map (map vs) (random_box rng b c csize nbar).
  Proof.
    intros. unfold random_box.
    replace (collective_size csize (option_map (fun n => n / s ^ 3) nbar) (vx (vs b) * vy (vs b) * vz (vs b))) with (collective_size csize nbar (vx b * vy b * vz b)).
    - rewrite map_bind. apply bind_ext. intros n. destruct (n <? 0)%Z; cbn [result_map]; auto. rewrite map_map. f_equal. apply map_ext. intros t.
      unfold box_position. cbv zeta. rewrite <- vscale_add. f_equal. unfold vscale; cbn [vx vy vz]. f_equal; ring.
    - destruct csize, nbar; cbn [collective_size option_map]; auto. do 3 f_equal. cbn [vscale vx vy vz]. field. apply (s_neq s Hs).
  Qed.
  Lemma accepted_map : forall {A B} (h : A -> B) prob prob' l, (forall a, prob' (h a) = prob a) ->
    accepted prob' (map (fun x : A * R => (h (fst x), snd x)) l) = map h (accepted prob l).
  Proof.
    intros A B h prob prob' l H. unfold accepted. induction l as [|[a u] l IH]; cbn [map filter fst snd]; auto. rewrite H. destruct (Rleb u (prob a)); cbn [map fst]; rewrite IH; reflexivity.
  Qed.
  Lemma zip_app_map : forall {A B} (h : A -> B) a b, zip_with (@app B) (map (map h) a) (map (map h) b) = map (map h) (zip_with (@app A) a b).
  Proof. intros A B h a. induction a as [|x a IH]; intros [|y b]; cbn; auto. unfold zip_with in IH. rewrite IH, map_app. reflexivity. Qed.
  Lemma zip_len_map : forall {A B} (h : A -> B) d b, zip_with (fun d t => d - Z.of_nat (List.length t))%Z d (map (map h) b) = zip_with (fun d t => d - Z.of_nat (List.length t))%Z d b.
  Proof. intros A B h d. induction d as [|x d IH]; intros [|y b]; cbn; auto. unfold zip_with in IH. rewrite IH, map_length. reflexivity. Qed.
  Lemma loop_map : forall {A B} (h : A -> B) prob prob' draws draws' fuel k acc dsize, (forall a, prob' (h a) = prob a) ->
    (forall k r, draws' k r = map (fun x : A * R => (h (fst x), snd x)) (draws k r)) ->
    sample_loop prob' draws' fuel k (map (map h) acc) dsize = result_map (fun x => (fst x, map (map h) (snd x))) (sample_loop prob draws fuel k acc dsize).
  Proof.
    intros A B h prob prob' draws draws' fuel. induction fuel as [|fuel IH]; intros k acc dsize P D; cbn [sample_loop]; destruct (0 <? allreduce dsize)%Z; auto.
    rewrite map_length.
    assert (E : round prob' draws' k (List.length acc) = map (map h) (round prob draws k (List.length acc))).
    { unfold round. rewrite map_map. apply map_ext. intros r. rewrite D. apply accepted_map; auto. }
    rewrite E, zip_app_map, zip_len_map. apply IH; auto.
  Qed.
  Lemma sample_map : forall {A B} (h : A -> B) prob prob' draws draws' fuel sizes, (forall a, prob' (h a) = prob a) ->
    (forall k r, draws' k r = map (fun x : A * R => (h (fst x), snd x)) (draws k r)) ->
    sample prob' draws' fuel sizes = result_map (map (map h)) (sample prob draws fuel sizes).
  Proof.
    intros A B h prob prob' draws draws' fuel sizes P D. unfold sample.
    replace (map (fun _ : nat => @nil B) sizes) with (map (map h) (map (fun _ : nat => @nil A) sizes)) by (rewrite map_map; reflexivity).
    rewrite (loop_map h prob prob' draws draws') by auto. rewrite bind_map, map_bind. apply bind_ext. intros [k z]. cbn [fst snd]. destruct k; auto. cbn [result_map].
    rewrite map_map. f_equal. apply map_ext. intros r. rewrite <- concat_map. unfold global_slice. rewrite skipn_map, firstn_map. reflexivity.
  Qed.
  Lemma cbrt_scale : forall x, 0 <= x -> cbrt (s ^ 3 * x) = s * cbrt x.
  Proof.
    intros x Hx. unfold cbrt. pose proof (s3_pos s Hs).
    destruct (Req_EM_T (s ^ 3 * x) 0) as [H0|H0], (Req_EM_T x 0) as [K|K].
    - ring.
    - apply Rmult_integral in H0. lra.
    - rewrite K, Rmult_0_r in H0; lra.
    - rewrite <- Rpower_mult_distr by lra. f_equal. rewrite <- (Rpower_pow 3 s Hs), Rpower_mult. replace (INR 3 * (1 / 3)) with 1 by (cbn; field). apply Rpower_1; auto.
  Qed.
  Lemma candidate_scale : forall a b t, 0 <= a <= b -> 0 <= t <= 1 -> radial_candidate (fun z => z) (s * a) (s * b) t = s * radial_candidate (fun z => z) a b t.
  Proof.
    intros a b t Ha Ht. unfold radial_candidate. rewrite <- cbrt_scale.
    - f_equal. unfold uniform. ring.
    - unfold uniform. assert (0 <= a ^ 3) by (apply pow_le; lra). assert (a ^ 3 <= b ^ 3) by (apply pow_incr; lra). nra.
  Qed.
End Proof.
