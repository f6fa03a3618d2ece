Require Import Reals Lra Lia ZArith String List Bool Sorted Permutation.
From Verif Require Import Base Vec3 Cutsky_Model Cutsky_Spec Box_Model Box_Spec Box_Proof Box_Proof2 Box_Proof3 Box_Proof4 Mask_Model FA_Model Remap_Model Region_Model Script_Model Script_Thm.
From Verif Require Import SV3_Model SV3_Thm Rosette_Model Rosette_Spec Rosette_Proof Rosette_Proof2 Rosette_Proof3 Rosette_Proof5.
Import ListNotations.
Open Scope R_scope.

(* ---------- remapping keeps the shape of catalogs ---------- *)
Lemma map_result_len : forall {A B} (f : A -> result B) l l', map_result f l = Ok l' -> List.length l' = List.length l.
Proof.
  intros A B f l. induction l as [|a l IH]; intros l' H; cbn in H; [injection H as <-; auto|]. destruct (f a); [|discriminate]. cbn [bind] in H. destruct (map_result f l) eqn:E; [|discriminate]. injection H as <-. cbn. rewrite (IH _ eq_refl). auto.
Qed.
Lemma map_cols_In : forall f d d' n x, map_cols f d = Ok d' -> In (n, x) d' -> exists y, In (n, y) d /\ f n y = Ok x.
Proof.
  intros f d. induction d as [|[k y] d IH]; intros d' n x H I; cbn in H; [injection H as <-; destruct I|]. destruct (f k y) as [z|] eqn:E; [|discriminate]. cbn [bind] in H. destruct (map_cols f d) as [d''|] eqn:Ed; [|discriminate]. injection H as <-.
  destruct I as [I|I]; [injection I as -> ->; exists y; split; [left; auto|auto]|]. destruct (IH _ _ _ eq_refl I) as (y' & A & B). exists y'. split; [right; auto|auto].
Qed.
Lemma remap_wf : forall c a c1 n, remap c a = Ok c1 -> wf n (bc_cat c) -> wf n (bc_cat c1) /\ boxcenter c1 = boxcenter c /\
  pc_position (bc_cat c1) = pc_position (bc_cat c) /\ pc_velocity (bc_cat c1) = pc_velocity (bc_cat c) /\ names (bc_cat c1) = names (bc_cat c) /\
  forall m x, column (bc_cat c) m = Some x -> ~ In m (pc_vectors (bc_cat c)) -> column (bc_cat c1) m = Some x.
Proof.
  intros c a c1 n H (Wr & Wv & Ip & Ni & Iv & Ivi). unfold remap in H. destruct (remap_cuboid _ a) as [cu|]; [|discriminate]. cbn [bind] in H. destruct (map_cols _ _) as [d|] eqn:E; [|discriminate]. cbn [bind] in H. injection H as <-. cbn [bc_cat boxcenter].
  assert (S : forall m x, In (m, x) d -> exists y, In (m, y) (pc_data (bc_cat c)) /\ col_rows x = col_rows y /\ (In m (pc_vectors (bc_cat c)) -> exists l, x = ColV l)).
  { intros m x I. destruct (map_cols_In _ _ _ _ _ E I) as (y & J & F). exists y. split; auto. destruct (mem m (pc_vectors (bc_cat c))) eqn:Mv.
    - unfold remap_col in F. destruct y as [l|l]; [|discriminate]. destruct (mem m (pc_invariants (bc_cat c))); unfold cu_transform in F; (destruct (map_result _ _) as [l'|] eqn:El; [|discriminate]); injection F as <-; apply map_result_len in El; cbn; rewrite ?map_length in *; split; eauto.
    - injection F as ->. split; auto. intros Q. apply mem_In in Q. congruence. }
  split; [|split; [reflexivity|split; [reflexivity|split; [reflexivity|split] ] ] ].
  - split; [|split; [|cbn; auto] ].
    + intros m x I. cbn in I. destruct (S m x I) as (y & J & -> & _). apply (Wr m y J).
    + intros m x I J. cbn in I, J. destruct (S m x I) as (y & _ & _ & K). auto.
  - apply map_cols_spec in E. exact (proj1 E).
  - intros m x C Nv. apply map_cols_spec in E. destruct E as [_ L]. specialize (L m). unfold column in *. cbn [pc_data]. rewrite C in L. destruct L as (x' & F & ->).
    assert (Mv : mem m (pc_vectors (bc_cat c)) = false) by (destruct (mem m (pc_vectors (bc_cat c))) eqn:Q; auto; apply mem_In in Q; tauto). rewrite Mv in F. congruence.
Qed.

(* ---------- running the script ---------- *)
Lemma select_rows_out : forall mask c c', Box_Model.select_rows mask c = Ok c' -> rows_ok (List.length (filter (fun b => b) mask)) c' /\ map fst (pc_data c') = map fst (pc_data c).
Proof.
  intros mask c c' H. unfold Box_Model.select_rows in H. destruct (map_cols _ _) as [d|] eqn:E; [|discriminate]. cbn [bind] in H. injection H as <-. split.
  - intros m x I. cbn in I. destruct (map_cols_In _ _ _ _ _ E I) as (y & _ & F). destruct y as [v|v]; cbn in F; (destruct (Box_Model.select mask v) as [w|] eqn:Ew; [|discriminate]); injection F as <-; apply select_ok_length in Ew; cbn; tauto.
  - apply map_cols_spec in E. exact (proj1 E).
Qed.
Lemma rows_csize' : forall n c, rows_ok n c -> rows_ok (csize c) c.
Proof. intros n c W. destruct (pc_data c) eqn:E; [intros m x H; rewrite E in H; destruct H|]. apply (rows_csize n); auto. rewrite E. discriminate. Qed.
Lemma made_rows : forall i imock b g region cat, made i imock b g region cat -> rows_ok (csize cat) cat.
Proof.
  intros i imock b g region cat (ids & dirs & los & _ & _ & _ & H). unfold group_catalog in H. destruct (g_vectors g) as [vs|]; [|discriminate]. cbn [bind] in H. destruct (place_box _ _ _ _ _) as [c1|]; [|discriminate]. cbn [bind] in H.
  destruct (observe _ _ _) as [c2|]; [|discriminate]. cbn [bind] in H. unfold cut_rosette in H. destruct (get_num "RA" _); [|discriminate]. cbn [bind] in H. destruct (get_num "DEC" _); [|discriminate]. cbn [bind] in H. destruct (get_num "Z" _); [|discriminate]. cbn [bind] in H.
  destruct (mask_and _ _) as [mask|]; [|discriminate]. cbn [bind] in H. apply select_rows_out in H. destruct H as [H _]. apply (rows_csize' _ _ H).
Qed.
Lemma group_step_run : forall i d imock region g cat, i_outdir i = Some d -> made i imock true g region cat -> ((imock < nran)%Z -> exists ran, made i imock false g region ran) ->
  exists fs, group_step i false imock region g = (fs, Ok cat).
Proof.
  intros i d imock region g cat Ed (ids & dirs & los & Et & Edr & El & Ec) Hr. unfold group_step. rewrite Et. cbn [io_ret io_bind]. rewrite Edr. cbn [bind]. rewrite El. cbn [io_bind]. cbn beta iota in Ec. rewrite Ec. cbn [io_bind].
  destruct (imock <? nran)%Z eqn:En; [|eexists; reflexivity]. apply Z.ltb_lt in En. destruct (Hr En) as (ran & ids' & dirs' & los' & Et' & Edr' & El' & Er). rewrite Et in Et'. injection Et' as <-. rewrite Edr in Edr'. injection Edr' as <-. rewrite El in El'. injection El' as <-.
  cbn beta iota in Er. rewrite Er. cbn [io_bind]. unfold write, catalog_fn. rewrite Ed. cbn. eexists. reflexivity.
Qed.
Lemma group_loop_run : forall i d imock l data, i_outdir i = Some d -> (forall x, In x l -> mem (snd x) script_regions = true) ->
  Forall2 (fun x y => fst (fst y) = g_rosettes (fst x) /\ snd (fst y) = snd x /\ made i imock true (fst x) (snd x) (snd y)) l data ->
  ((imock < nran)%Z -> forall x, In x l -> exists ran, made i imock false (fst x) (snd x) ran) -> exists fs, group_loop i false imock l = (fs, Ok data).
Proof.
  intros i d imock l data Ed M F. induction F as [|[g region] [[ros reg] cat] l data (A & B & C) F IH]; intros Hr; cbn [group_loop]; [eexists; reflexivity|]. cbn [fst snd] in A, B, C. subst.
  pose proof (M (g, region) (or_introl eq_refl)) as Mr. cbn [snd] in Mr. rewrite Mr. clear Mr. destruct (group_step_run i d imock region g cat Ed C (fun q => Hr q (g, region) (or_introl eq_refl))) as [fs1 E1]. rewrite E1. cbn [io_bind].
  destruct (IH (fun x h => M x (or_intror h)) (fun q x h => Hr q x (or_intror h))) as [fs2 E2]. rewrite E2. cbn. eexists. reflexivity.
Qed.
Lemma one_mock_run : forall i d imock regions data, i_outdir i = Some d -> (forall x, In x regions -> In (snd x) script_regions) ->
  Forall2 (fun x y => fst (fst y) = g_rosettes (fst x) /\ snd (fst y) = snd x /\ made i imock true (fst x) (snd x) (snd y)) regions data ->
  ((imock < nran)%Z -> forall x, In x regions -> exists ran, made i imock false (fst x) (snd x) ran) -> (forall region, In region script_regions -> (0 < region_total region data)%nat) ->
  exists fs, one_mock i false regions imock = (fs, Ok tt).
Proof.
  intros i d imock regions data Ed M F Hr Ht. destruct (group_loop_run i d imock regions data Ed (fun x h => proj2 (mem_In _ _) (M x h)) F Hr) as [fs E]. unfold one_mock. rewrite E. cbn [io_bind].
  assert (W : forall y, In y data -> rows_ok (csize (snd y)) (snd y)).
  { intros y Hy. clear - F Hy. induction F as [|x z l data (_ & _ & A) F IH]; [destruct Hy|]. destruct Hy as [<-|Hy]; [eapply made_rows; eauto|auto]. }
  unfold script_regions, each in *. destruct (thin_region_files i d imock data "N" Ed W (Ht "N"%string (or_introl eq_refl))) as (fN & EN & _). destruct (thin_region_files i d imock data "S" Ed W (Ht "S"%string (or_intror (or_introl eq_refl)))) as (fS & ES & _).
  rewrite EN. cbn [io_bind]. rewrite ES. cbn. eexists. reflexivity.
Qed.
Lemma each_run : forall {A} (f : A -> io unit) l, (forall a, In a l -> exists fs, f a = (fs, Ok tt)) -> exists fs, each f l = (fs, Ok tt).
Proof.
  intros A f l. induction l as [|a l IH]; intros H; cbn [each]; [eexists; reflexivity|]. destruct (H a (or_introl eq_refl)) as [fs E]. rewrite E. cbn [io_bind]. destruct (IH (fun x h => H x (or_intror h))) as [fs' E']. rewrite E'. eexists. reflexivity.
Qed.
Lemma regions_run : forall directions groups regions, Forall2 (in_region directions) groups regions -> rosettes_to_region (region_rosettes directions) (map g_rosettes groups) = Ok (combine (map g_rosettes groups) regions).
Proof.
  intros directions groups regions F. unfold rosettes_to_region.
  assert (E : map_result (group_region (region_rosettes directions)) (map g_rosettes groups) = Ok regions /\ check_groups (region_rosettes directions) (combine (map g_rosettes groups) regions) = Ok tt).
  { induction F as [|g region groups regions [Ne A] F [IH1 IH2]]; [cbn; auto|]. cbn [map map_result combine check_groups]. split.
    - destruct (g_rosettes g) as [|r l] eqn:Eg; [contradiction|]. cbn [group_region]. rewrite zassoc_region. destruct (A r (or_introl eq_refl)) as (ra & dec & Er & ->). rewrite Er. cbn [bind]. rewrite IH1. reflexivity.
    - assert (Ea : all_in (region_rosettes directions) region (g_rosettes g) = Ok true).
      { clear - A. revert A. generalize (g_rosettes g). intros l. induction l as [|r l IH]; intros A; cbn; auto. rewrite zassoc_region. destruct (A r (or_introl eq_refl)) as (ra & dec & Er & Ereg). rewrite Er. cbn [snd].
        unfold get_region. rewrite <- Ereg, String.eqb_refl. apply IH. intros; apply A; right; auto. }
      rewrite Ea. cbn [bind]. exact IH2. }
  destruct E as [E1 E2]. rewrite E1. cbn [bind]. rewrite E2. reflexivity.
Qed.
Lemma script_run : forall i d regions start stop, i_outdir i = Some d -> Forall2 (in_region (i_directions i)) (i_groups i) regions ->
  (forall imock, (start <= imock < stop)%Z -> exists data,
     Forall2 (fun x y => fst (fst y) = g_rosettes (fst x) /\ snd (fst y) = snd x /\ made i imock true (fst x) (snd x) (snd y)) (combine (i_groups i) regions) data /\
     ((imock < nran)%Z -> forall x, In x (combine (i_groups i) regions) -> exists ran, made i imock false (fst x) (snd x) ran) /\
     (forall region, In region script_regions -> (0 < region_total region data)%nat)) ->
  exists fs, sv3_script i false start stop = (fs, Ok tt).
Proof.
  intros i d regions start stop Ed F H. unfold sv3_script. rewrite (regions_run _ _ _ F). cbn [io_ret io_bind].
  assert (Es : map snd (combine (map g_rosettes (i_groups i)) regions) = regions) by (clear - F; induction F; cbn; congruence). rewrite Es.
  destruct (each_run (one_mock i false (combine (i_groups i) regions)) (SV3_Model.zrange start stop)) as [fs E].
  - intros imock Hi. unfold SV3_Model.zrange in Hi. apply in_map_iff in Hi. destruct Hi as (k & <- & Hk). apply in_seq in Hk. destruct (H (start + Z.of_nat k)%Z ltac:(lia)) as (data & A & B & C).
    apply (one_mock_run i d _ _ data Ed); auto. intros [g reg] Hx. clear - F Hx. cbn [snd]. revert Hx. induction F as [|g0 r0 gs rs [Ne A] F IH]; intros Hx; cbn in Hx; [destruct Hx|]. destruct Hx as [Hx|Hx]; [|auto]. injection Hx as -> ->.
    destruct (g_rosettes g) as [|k0 ks] eqn:Eg; [exfalso; apply Ne; auto|]. destruct (A k0 (or_introl eq_refl)) as (ra & dec & _ & ->). destruct (Rltb (259 / 8) dec); cbn; auto.
  - rewrite E. eexists. reflexivity.
Qed.
