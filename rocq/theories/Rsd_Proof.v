(** Proofs about redshift space distortions. *)
Require Import Reals Lra Lia ZArith List Bool String.
From Verif Require Import Base Vec3 Isometry_Model Isometry_Spec Isometry_Proof Sky_Model Sky_Spec Sky_Proof Cutsky_Model Box_Model Box_Spec Box_Proof
  Rsd_Model Rsd_Spec.
Import ListNotations.
Open Scope R_scope.

Lemma unit_sq : forall a, 0 < a -> a * a = 1 -> a = 1.
Proof. intros a P H. assert ((a - 1) * (a + 1) = 0) by lra. apply Rmult_integral in H0. lra. Qed.

Lemma los_means_ok : forall a u, los_means a u -> get_los a = Ok u /\ vdot u u = 1.
Proof.
  intros a u H. destruct H.
  1: destruct (get_los_axis 0 ltac:(lia)) as [_ E]. 2: destruct (get_los_axis 1 ltac:(lia)) as [_ E]. 3: destruct (get_los_axis 2 ltac:(lia)) as [_ E].
  4: destruct (get_los_axis 0 ltac:(lia)) as [E _]. 5: destruct (get_los_axis 1 ltac:(lia)) as [E _]. 6: destruct (get_los_axis 2 ltac:(lia)) as [E _].
  1-6: (split; [exact E | cbv [vdot vx vy vz]; ring]).
  split; auto. destruct H as (k & K & <-).
  assert (N : v <> vzero). { intros ->. rewrite vscale_zero in H0. cbv [vdot vzero vx vy vz] in H0. lra. }
  rewrite get_los_scalar_vec by auto. do 2 f_equal.
  rewrite vdot_scale_l, vdot_scale_r, <- vnorm_sqr in H0. pose proof (vnorm_pos v N) as P.
  assert (X : k * vnorm v = 1) by (apply unit_sq; nra). apply Rmult_eq_reg_r with (vnorm v); [rewrite Rinv_l by lra; lra|lra].
Qed.

Lemma vp1_unit : forall v u, vdot u u = 1 -> vector_projection1 v u = Ok (vscale (vdot v u) u).
Proof.
  intros v u H. rewrite vp1_ok. - rewrite H. do 2 f_equal. field.
  - intros ->. cbv [vdot vzero vx vy vz] in H. lra.
Qed.

Lemma local_los_ok : forall p, p <> vzero -> exists u, local_los p = Ok u /\ same_direction p u /\ vdot u u = 1.
Proof.
  intros p H. pose proof (vnorm_pos p H) as P. unfold local_los. rewrite distance_vnorm.
  destruct (Req_EM_T (vnorm p) 0); [lra|]. exists (vscale (/ vnorm p) p). split.
  - f_equal. unfold vscale. f_equal; field; lra.
  - split. + exists (/ vnorm p). split; auto. apply Rinv_0_lt_compat; lra.
    + rewrite vdot_scale_l, vdot_scale_r, <- vnorm_sqr. field. lra.
Qed.

Lemma vp_one_dir : forall vs u, vdot u u = 1 -> vector_projection vs [u] = Ok (map (fun v => vscale (vdot v u) u) vs).
Proof.
  intros vs u H. unfold vector_projection. induction vs as [|v vs IH]; cbn; auto. rewrite vp1_unit by auto. cbn.
  rewrite IH. reflexivity.
Qed.

Lemma vp_many : forall vs us, List.length vs = List.length us -> (forall u, In u us -> vdot u u = 1) ->
  vector_projection vs us = Ok (map (fun x : vec * vec => vscale (vdot (fst x) (snd x)) (snd x)) (combine vs us)).
Proof.
  intros vs us L U. assert (M : map2_result vector_projection1 vs us =
      Ok (map (fun x : vec * vec => vscale (vdot (fst x) (snd x)) (snd x)) (combine vs us))).
  { revert us L U. induction vs as [|v vs IH]; intros [|u us] L U; cbn in *; try discriminate; auto.
    rewrite vp1_unit by auto. cbn. rewrite IH; auto. }
  unfold vector_projection. destruct us as [|u us].
  - destruct vs; [auto|discriminate].
  - destruct us as [|u' us].
    + destruct vs as [|v vs]; [discriminate|]. destruct vs; [|discriminate]. exact M.
    + destruct vs as [|v vs]; [discriminate|]. destruct vs; [discriminate|]. exact M.
Qed.

Lemma add_rows : forall pos rsd, List.length rsd = List.length pos ->
  map2_result (fun p r => Ok (vadd p r)) pos rsd = Ok (map (fun x : vec * vec => vadd (fst x) (snd x)) (combine pos rsd)).
Proof. induction pos as [|p pos IH]; intros [|r rsd] L; cbn in *; try discriminate; auto. rewrite IH; auto. Qed.

Lemma combine_nth_error : forall {A B} (l : list A) (m : list B) i a b, nth_error l i = Some a -> nth_error m i = Some b ->
  nth_error (combine l m) i = Some (a, b).
Proof.
  induction l as [|x l IH]; intros m i a b E F; destruct i; cbn in *; try discriminate; destruct m; cbn in *; try discriminate.
  - congruence. - eauto.
Qed.

Lemma rsd_fixed_ok : forall c pos vel a u f, position c = Ok pos -> velocity c = Ok vel -> List.length vel = List.length pos -> los_means a u ->
  exists out, rsd_position c (FNum f) (Some a) = Ok out /\ row_by_row (moved_along u f) pos vel out.
Proof.
  intros c pos vel a u f Ep Ev L M. destruct (los_means_ok _ _ M) as [G U].
  unfold rsd_position. rewrite Ep; cbn [bind]. rewrite G; cbn [bind]. rewrite Ev; cbn [bind]. rewrite vp_one_dir by auto. cbn [bind].
  rewrite map_map, add_rows by (rewrite map_length; auto). eexists; split; [reflexivity|]. split.
  - rewrite map_length, combine_length, map_length, L. apply Nat.min_id.
  - intros i p v q Hp Hv Hq. split; auto.
    assert (Hm := map_nth_error (fun x => vscale f (vscale (vdot x u) u)) _ _ Hv).
    rewrite (map_nth_error _ _ _ (combine_nth_error _ _ _ _ _ Hp Hm)) in Hq. injection Hq as <-. cbn.
    rewrite vscale_scale. reflexivity.
Qed.

Lemma local_all : forall pos, (forall p, In p pos -> p <> vzero) -> exists us, map_result local_los pos = Ok us /\
  List.length us = List.length pos /\ (forall u, In u us -> vdot u u = 1) /\
  forall i p, nth_error pos i = Some p -> exists u, nth_error us i = Some u /\ same_direction p u /\ vdot u u = 1.
Proof.
  induction pos as [|p pos IH]; intros H; cbn.
  - exists []. split; auto. split; auto. split; [intros ? []|]. intros [|j] q; discriminate.
  - destruct (local_los_ok p) as (u & E & D & U); [apply H; left; auto|].
    destruct IH as (us & Es & L & Us & N); [intros; apply H; right; auto|].
    rewrite E; cbn [bind]. rewrite Es; cbn [bind]. exists (u :: us). split; auto. split; [cbn; auto|]. split.
    + intros x [<-|I]; auto.
    + intros [|i] q Hq; cbn in *; [injection Hq as <-; eauto|auto].
Qed.

Lemma rsd_local_ok : forall c pos vel f, position c = Ok pos -> velocity c = Ok vel -> List.length vel = List.length pos ->
  (forall p, In p pos -> p <> vzero) ->
  exists out, rsd_position c (FNum f) None = Ok out /\ row_by_row (moved_radially f) pos vel out.
Proof.
  intros c pos vel f Ep Ev L Z. destruct (local_all pos Z) as (us & Eu & Lu & U & N).
  unfold rsd_position. rewrite Ep; cbn [bind]. rewrite Eu; cbn [bind]. rewrite Ev; cbn [bind]. rewrite vp_many by (auto; congruence). cbn [bind].
  assert (Lc : List.length (combine vel us) = List.length pos) by (rewrite combine_length, L, Lu; apply Nat.min_id).
  rewrite map_map, add_rows by (rewrite map_length; auto). eexists; split; [reflexivity|]. split.
  - rewrite map_length, combine_length, map_length, Lc. apply Nat.min_id.
  - intros i p v q Hp Hv Hq. destruct (N i p Hp) as (u & Hu & D & Uu). exists u. split; auto. split; auto.
    assert (Hm := map_nth_error (fun x : vec * vec => vscale f (vscale (vdot (fst x) (snd x)) (snd x))) _ _ (combine_nth_error _ _ _ _ _ Hv Hu)).
    rewrite (map_nth_error _ _ _ (combine_nth_error _ _ _ _ _ Hp Hm)) in Hq. injection Hq as <-. cbn.
    rewrite vscale_scale. reflexivity.
Qed.

Lemma rsd_local_origin : forall c pos vel f, position c = Ok pos -> velocity c = Ok vel -> In vzero pos ->
  rsd_position c f None = Err ZeroDivision.
Proof.
  intros c pos vel f Ep Ev I. unfold rsd_position. rewrite Ep; cbn [bind].
  assert (E : map_result local_los pos = Err ZeroDivision); [|rewrite E; reflexivity].
  clear Ep. induction pos as [|p pos IH]; [destruct I|]. cbn.
  unfold local_los at 1. rewrite distance_vnorm. destruct (Req_EM_T (vnorm p) 0) as [|X]; [reflexivity|].
  cbn. destruct I as [->|I]; [exfalso; apply X, vnorm_vzero|]. rewrite IH; auto.
Qed.

(** Angular position. *)
Lemma arctan2_pos_scale : forall k y x, 0 < k -> arctan2 (k * y) (k * x) = arctan2 y x.
Proof.
  intros k y x K. unfold arctan2.
  assert (S : forall a, (0 < k * a <-> 0 < a)) by (intros; split; nra).
  assert (S' : forall a, (k * a < 0 <-> a < 0)) by (intros; split; nra).
  assert (D : x <> 0 -> k * y / (k * x) = y / x) by (intros; field; lra).
  repeat match goal with
  | |- context [if ?d then _ else _] => destruct d
  end; try (rewrite D by lra; reflexivity); auto; exfalso; nra.
Qed.

Lemma c2s_scale : forall d k p x y z, 0 < k -> cartesian_to_sky d p = Ok (x, y, z) ->
  cartesian_to_sky d (vscale k p) = Ok (k * x, y, z).
Proof.
  intros d k p x y z K H. unfold cartesian_to_sky in *. rewrite distance_vnorm in *.
  rewrite vnorm_scale, (Rabs_pos_eq k) by lra. destruct (Req_EM_T (vnorm p) 0); [discriminate|].
  injection H as <- <- <-. destruct (Req_EM_T (k * vnorm p) 0); [exfalso; nra|].
  cbn [vx vy vz vscale]. rewrite arctan2_pos_scale by auto.
  replace (k * vz p / (k * vnorm p)) with (vz p / vnorm p) by (field; lra). reflexivity.
Qed.

(** The line-of-sight position p.u + f v.u stays positive: same direction on the sky. *)
Lemma radial_same_sky : forall f p v q d x y z, moved_radially f p v q -> cartesian_to_sky d p = Ok (x, y, z) ->
  0 < x + f * (vdot v p / x) -> cartesian_to_sky d q = Ok (x + f * (vdot v p / x), y, z).
Proof.
  intros f p v q d x y z (u & (k & K & <-) & U & ->) H X.
  destruct (c2s_angles _ _ _ _ _ H) as (-> & P & _).
  rewrite vdot_scale_l, vdot_scale_r, <- vnorm_sqr in U.
  assert (Kn : k * vnorm p = 1) by (apply unit_sq; nra).
  assert (Ek : k = / vnorm p) by (apply Rmult_eq_reg_r with (vnorm p); [rewrite Rinv_l by lra; lra|lra]).
  replace (vadd p (vscale (f * vdot v (vscale k p)) (vscale k p))) with (vscale (1 + f * vdot v p * k * k) p).
  2:{ rewrite vdot_scale_r. unfold vadd, vscale; cbn [vx vy vz]. destruct p; cbn; f_equal; ring. }
  assert (C : vnorm p + f * (vdot v p / vnorm p) = (1 + f * vdot v p * k * k) * vnorm p) by (rewrite Ek; field; lra).
  rewrite C. apply c2s_scale; auto. rewrite C in X. nra.
Qed.

(** Zero velocity. *)
Lemma radial_rest : forall f p q, moved_radially f p vzero q -> q = p.
Proof.
  intros f p q (u & _ & _ & ->). destruct p, u. unfold vadd, vscale, vdot, vzero; cbn. f_equal; ring.
Qed.
Lemma along_rest : forall u f p q, moved_along u f p vzero q -> q = p.
Proof.
  intros u f p q (_ & ->). destruct p, u. unfold vadd, vscale, vdot, vzero; cbn. f_equal; ring.
Qed.

(** Perpendicular components are untouched. *)
Lemma along_perp : forall u f p v q w, moved_along u f p v q -> vdot w u = 0 -> vdot w q = vdot w p.
Proof. intros u f p v q w (_ & ->) H. rewrite vdot_add_r, vdot_scale_r, H. ring. Qed.

(** Callable factor. *)
Lemma los_rows : forall c pos vel los, position c = Ok pos -> velocity c = Ok vel -> List.length vel = List.length pos ->
  (los = None -> forall p, In p pos -> p <> vzero) -> (forall a, los = Some a -> exists u, los_means a u) ->
  exists ds rsd, (match los with None => map_result local_los pos | Some a => do v <- get_los a; Ok [v] end) = Ok ds /\
    vector_projection vel ds = Ok rsd /\ List.length rsd = List.length pos.
Proof.
  intros c pos vel [a|] Ep Ev L Z M.
  - destruct (M a eq_refl) as (u & Mu). destruct (los_means_ok _ _ Mu) as [G U]. rewrite G; cbn [bind].
    exists [u]. rewrite vp_one_dir by auto. eexists. repeat split. rewrite map_length; auto.
  - destruct (local_all pos (Z eq_refl)) as (us & Eu & Lu & U & _). exists us. rewrite vp_many by (auto; congruence).
    eexists. repeat split; eauto. rewrite map_length, combine_length, L, Lu. apply Nat.min_id.
Qed.

Lemma rsd_callable_err : forall c pos vel f los, position c = Ok pos -> velocity c = Ok vel -> List.length vel = List.length pos ->
  (los = None -> forall p, In p pos -> p <> vzero) -> (forall a, los = Some a -> exists u, los_means a u) ->
  List.length pos <> 1%nat -> List.length pos <> 3%nat -> rsd_position c (FFun f) los = Err ValueError.
Proof.
  intros c pos vel f los Ep Ev L Z M N1 N3. destruct (los_rows c pos vel los Ep Ev L Z M) as (ds & rsd & E1 & E2 & _).
  unfold rsd_position. rewrite Ep; cbn [bind]. rewrite E1; cbn [bind]. rewrite Ev; cbn [bind]. rewrite E2; cbn [bind].
  destruct pos as [|a [|b [|d [|e pos]]]]; cbn in *; try lia; reflexivity.
Qed.

Lemma rsd_callable_one : forall c p v f los, position c = Ok [p] -> velocity c = Ok [v] ->
  rsd_position c (FFun f) los = rsd_position c (FNum (f (distance p))) los.
Proof.
  intros c p v f los Ep Ev. unfold rsd_position. rewrite Ep; cbn [bind]. rewrite Ev.
  destruct los; cbn; [destruct (get_los a); cbn; auto; destruct (vector_projection [v] [a0]); cbn; auto|].
  destruct (local_los p); reflexivity.
Qed.
