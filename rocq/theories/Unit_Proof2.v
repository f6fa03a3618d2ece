(** Change of unit: histories of calls of the methods of mocks. *)
Require Import Reals Lra Lia ZArith String List Bool FunctionalExtensionality.
From Verif Require Import Base Vec3 Isometry_Model Sky_Model Cutsky_Model Box_Model Rsd_Model Mock_Model Mesh_Model Remap_Model Unit_Spec Density_Proof Ens_Proof Unit_Proof.
Import ListNotations.
Open Scope R_scope.

(** Results. *)
Lemma bind_map : forall {A B C} (f : A -> B) (r : result A) (k : B -> result C), (do x <- result_map f r; k x) = (do x <- r; k (f x)).
Proof. intros A B C f [a|e] k; reflexivity. Qed.
Lemma map_bind : forall {A B C} (f : B -> C) (r : result A) (k : A -> result B), result_map f (do x <- r; k x) = (do x <- r; result_map f (k x)).
Proof. intros A B C f [a|e] k; reflexivity. Qed.
Lemma bind_ext : forall {A B} (r : result A) (k k' : A -> result B), (forall x, k x = k' x) -> (do x <- r; k x) = (do x <- r; k' x).
Proof. intros A B [a|e] k k' H; cbn; auto. Qed.
Lemma result_map_id : forall {A} (f : A -> A) (r : result A), (forall x, f x = x) -> result_map f r = r.
Proof. intros A f [a|e] H; cbn; congruence. Qed.

Section Proof.
  Variable s : R.
  Hypothesis Hs : 0 < s.

  (** Redshift space distortions of objects. *)
  Lemma map_result_map : forall {A B A' B'} (f : A -> result B) (f' : A' -> result B') (h : A -> A') (g : B -> B') l,
    (forall a, f' (h a) = result_map g (f a)) -> map_result f' (map h l) = result_map (map g) (map_result f l).
  Proof.
    intros A B A' B' f f' h g l H. induction l as [|a l IH]; cbn [map map_result]; auto. rewrite H, IH.
    destruct (f a) as [b|e]; cbn; auto. destruct (map_result f l); reflexivity.
  Qed.
  Lemma map2_result_map : forall {A B C A' B' C'} (f : A -> B -> result C) (f' : A' -> B' -> result C') (h : A -> A') (k : B -> B') (g : C -> C') la lb,
    (forall a b, f' (h a) (k b) = result_map g (f a b)) -> map2_result f' (map h la) (map k lb) = result_map (map g) (map2_result f la lb).
  Proof.
    intros A B C A' B' C' f f' h k g la. induction la as [|a la IH]; intros [|b lb] H; cbn [map map2_result]; auto. rewrite H, IH by auto.
    destruct (f a b) as [c|e]; cbn; auto. destruct (map2_result f la lb); reflexivity.
  Qed.
  Lemma local_los_scale : forall p, local_los (vscale s p) = local_los p.
  Proof.
    intros. unfold local_los. cbv zeta. rewrite (distance_scale s Hs). pose proof (s_neq s Hs) as Ns.
    destruct (Req_EM_T (s * distance p) 0) as [H|H], (Req_EM_T (distance p) 0) as [K|K]; auto.
    - apply Rmult_integral in H; tauto.
    - rewrite K, Rmult_0_r in H; lra.
    - cbn [vscale vx vy vz]. rewrite !(ratio_scale s Hs). reflexivity.
  Qed.
  Lemma projection1_scale : forall t v d, vector_projection1 (vscale t v) d = result_map (vscale t) (vector_projection1 v d).
  Proof. intros. unfold vector_projection1. destruct (Req_EM_T _ 0); cbn [result_map]; auto. f_equal. unfold vscale; cbn [vx vy vz]. f_equal; ring. Qed.
  Lemma projection_scale : forall t vs ds, vector_projection (map (vscale t) vs) ds = result_map (map (vscale t)) (vector_projection vs ds).
  Proof.
    intros.
    assert (K : forall vs ds, map2_result vector_projection1 (map (vscale t) vs) ds = result_map (map (vscale t)) (map2_result vector_projection1 vs ds)).
    { intros a b. rewrite <- (map_id b) at 1. apply (map2_result_map vector_projection1 vector_projection1 (vscale t) (fun x => x)). intros; apply projection1_scale. }
    unfold vector_projection. destruct ds as [|d [|e ds]].
    - destruct vs as [|v [|w vs]]; cbn; auto.
    - rewrite map_length. apply K.
    - destruct vs as [|v [|w vs]]; [apply K| |apply K]. cbn [map]. rewrite (repeat_map (vscale t)). apply K.
  Qed.
  Lemma inplace_scale : forall t rsd a, scale_inplace (map (vscale t) rsd) a = result_map (map (vscale t)) (scale_inplace rsd a).
  Proof.
    intros. unfold scale_inplace. destruct a as [|x [|y [|z [|]]]]; cbn [result_map]; auto; f_equal; rewrite !map_map; apply map_ext; intros v.
    - apply vscale_swap.
    - apply vmul_scale.
  Qed.
  Lemma add_scale : forall a b, map2_result (fun p r => Ok (vadd p r)) (map (vscale s) a) (map (vscale s) b) = result_map (map (vscale s)) (map2_result (fun p r => Ok (vadd p r)) a b).
  Proof. intros. apply map2_result_map. intros; cbn [result_map]. rewrite vscale_add. reflexivity. Qed.
  Lemma lagrangian_scale : forall pos disps f los,
    lagrangian_set_rsd (map (vscale s) pos) (map (vscale s) disps) (factor_u s f) los = result_map (map (vscale s)) (lagrangian_set_rsd pos disps f los).
  Proof.
    intros. unfold lagrangian_set_rsd.
    replace (map_result local_los (map (vscale s) pos)) with (map_result local_los pos).
    2: { rewrite (map_result_map local_los local_los (vscale s) (fun x => x)).
         - rewrite result_map_id; auto. intros; apply map_id.
         - intros a. rewrite local_los_scale, result_map_id; auto. }
    rewrite map_bind. apply bind_ext. intros l. rewrite projection_scale, bind_map, map_bind. apply bind_ext. intros rsd.
    destruct f as [f|f]; cbn [factor_u].
    - cbn [bind]. rewrite map_map. rewrite (map_ext (fun x => vscale f (vscale s x)) (fun x => vscale s (vscale f x))) by (intros; apply vscale_swap).
      rewrite <- (map_map (vscale f) (vscale s)). apply add_scale.
    - rewrite !map_map. rewrite (map_ext (fun x => f (distance (vscale s x) / s)) (fun x => f (distance x))) by (intros; rewrite (distance_scale s Hs), (div_s s Hs); reflexivity).
      rewrite inplace_scale, bind_map, map_bind. apply bind_ext. intros; apply add_scale.
  Qed.

  (** Readouts. *)
  Definition field_times (t : R) (f : field) : field := match f with Number a => Number (t * a) | Mesh f => Mesh (fun x => t * f x) end.
  Lemma field_u_times : forall f, field_u s f = field_times (/ s ^ 3) f.
  Proof. intros [a|f]; cbn; f_equal; [unfold Rdiv; ring|extensionality x; unfold Rdiv; ring]. Qed.
  Lemma times_u : forall b g, times (field_u s b) g = fun x => / s ^ 3 * times b g x.
  Proof. intros. extensionality x. rewrite times_scale. unfold Rdiv; ring. Qed.
  Lemma readout_field : forall freq pm pm' m ps t f r comp, same_pmesh s pm pm' ->
    (do f <- (if comp : bool then do f <- as_mesh (field_times t f); do g <- compensate_mesh freq (m_box (mock_u s m)) (m_n (mock_u s m)) (lowercase r) f; Ok (Mesh g) else Ok (field_times t f));
     if known pm' (if String.eqb (lowercase r) "ngp" then "nnb"%string else lowercase r)
     then do f <- as_mesh f; Ok (map (readout_at pm' (m_n (mock_u s m)) (if String.eqb (lowercase r) "ngp" then "nnb"%string else lowercase r) f)
                             (map (fun p => vadd (vsub p (m_center (mock_u s m))) (vscale (1 / 2) (m_box (mock_u s m)))) (map (vscale s) ps))) else Err ExternalError) =
    result_map (map (Rmult t))
    (do f <- (if comp then do f <- as_mesh f; do g <- compensate_mesh freq (m_box m) (m_n m) (lowercase r) f; Ok (Mesh g) else Ok f);
     if known pm (if String.eqb (lowercase r) "ngp" then "nnb"%string else lowercase r)
     then do f <- as_mesh f; Ok (map (readout_at pm (m_n m) (if String.eqb (lowercase r) "ngp" then "nnb"%string else lowercase r) f)
                             (map (fun p => vadd (vsub p (m_center m)) (vscale (1 / 2) (m_box m))) ps)) else Err ExternalError).
  Proof.
    intros freq pm pm' m ps t f r comp HP. pose proof HP as (K & _). cbn [mock_u m_box m_n m_center].
    set (r' := if String.eqb (lowercase r) "ngp" then "nnb"%string else lowercase r).
    assert (G : forall f, (if known pm' r' then do f <- as_mesh (field_times t f); Ok (map (readout_at pm' (m_n m) r' f)
                 (map (fun p => vadd (vsub p (vscale s (m_center m))) (vscale (1 / 2) (vscale s (m_box m)))) (map (vscale s) ps))) else Err ExternalError) =
               result_map (map (Rmult t)) (if known pm r' then do f <- as_mesh f; Ok (map (readout_at pm (m_n m) r' f)
                             (map (fun p => vadd (vsub p (m_center m)) (vscale (1 / 2) (m_box m))) ps)) else Err ExternalError)).
    { intros g. rewrite K. destruct (known pm r'); auto. destruct g as [a|g]; cbn [field_times as_mesh bind result_map]; auto. f_equal.
      rewrite !map_map. apply map_ext. intros p. rewrite box_units, (readout_at_scale s pm pm') by auto. apply readout_at_linear. }
    destruct comp; [|cbn [bind]; apply G].
    destruct f as [a|f]; cbn [field_times as_mesh bind result_map]; auto.
    rewrite (compensate_scale s Hs), bind_map. destruct (compensate_mesh freq (m_box m) (m_n m) (lowercase r) f) as [g|e]; cbn [bind result_map]; auto.
    apply (G (Mesh g)).
  Qed.
  Lemma readout_given : forall freq pm pm' m ps t f r comp, same_pmesh s pm pm' ->
    readout freq pm' (mock_u s m) (map (vscale s) ps) (Given (fun x => t * f x)) r comp = result_map (map (Rmult t)) (readout freq pm m ps (Given f) r comp).
  Proof. intros freq pm pm' m ps t f r comp HP. unfold readout. cbn [choose_field bind]. apply (readout_field freq pm pm' m ps t (Mesh f) r comp HP). Qed.
  Local Notation unit_read := (unit_read s).
  Lemma choose_scale : forall m name, String.prefix "disp_" name = false ->
    choose_field (mock_u s m) (Named name) = result_map (field_times (unit_read (Named name))) (choose_field m (Named name)).
  Proof.
    intros m name Hn. unfold choose_field, Unit_Spec.unit_read. rewrite Hn. cbn [mock_u m_delta_r m_nbar].
    destruct (String.eqb name "delta").
    { destruct (m_delta_r m); cbn; auto. do 2 f_equal. extensionality x; ring. }
    destruct (m_nbar m) as [b|]; cbn [option_map attribute bind];
      repeat match goal with |- context [if String.eqb name ?c then _ else _] => destruct (String.eqb name c) end; cbn [result_map]; auto.
    - destruct (m_delta_r m); cbn [attribute bind result_map field_times]; auto. rewrite times_u. reflexivity.
    - destruct (m_delta_r m); cbn [attribute bind result_map field_times]; auto. rewrite times_u. reflexivity.
    - rewrite field_u_times. reflexivity.
  Qed.
  Lemma prefix_errors : forall m name, String.prefix "disp_" name = true -> choose_field m (Named name) = Err ValueError.
  Proof.
    intros m name Hn. unfold choose_field.
    repeat match goal with |- context [String.eqb name ?c] => destruct (String.eqb_spec name c) as [->|]; [discriminate Hn|] end. reflexivity.
  Qed.
  Lemma readout_base : forall freq pm pm' m ps a r comp, same_pmesh s pm pm' ->
    readout freq pm' (mock_u s m) (map (vscale s) ps) a r comp = result_map (map (Rmult (unit_read a))) (readout freq pm m ps a r comp).
  Proof.
    intros freq pm pm' m ps [name|f] r comp HP.
    - destruct (String.prefix "disp_" name) eqn:Hn.
      + unfold readout. rewrite !prefix_errors by auto. reflexivity.
      + unfold readout. rewrite (choose_scale m name Hn), bind_map, map_bind. apply bind_ext. intros f. apply (readout_field freq pm pm' m ps _ f r comp HP).
    - cbn [Unit_Spec.unit_read]. rewrite <- (readout_given freq pm pm' m ps 1 f r comp HP). do 2 f_equal. extensionality x; ring.
  Qed.
  Lemma readout_scale : forall freq c pm pm' m ps a r comp, same_pmesh s pm pm' ->
    mock_readout c freq pm' (mock_u s m) (map (vscale s) ps) a r comp = result_map (map (Rmult (unit_read a))) (mock_readout c freq pm m ps a r comp).
  Proof.
    intros freq [|] pm pm' m ps a r comp HP; cbn [mock_readout]; [apply readout_base; auto|]. unfold lagrangian_readout.
    destruct a as [name|f]; [|apply (readout_base freq pm pm' m ps (Given f) r false HP)].
    destruct (String.prefix "disp_" name) eqn:Hn; [|apply (readout_base freq pm pm' m ps (Named name) r false HP)].
    unfold Unit_Spec.unit_read; rewrite Hn. destruct (xyz_index _) as [i|e]; cbn [bind result_map]; auto. cbn [mock_u m_disp].
    destruct (m_disp m) as [d|]; cbn [option_map attribute bind result_map]; auto. apply readout_given; auto.
  Qed.

  (** One call, and any number of calls. *)
  Lemma rows_scale : forall x y z, rows3 (map (Rmult s) x) (map (Rmult s) y) (map (Rmult s) z) = map (vscale s) (rows3 x y z).
  Proof. induction x as [|a x IH]; intros [|b y] [|c z]; cbn; auto. rewrite IH. reflexivity. Qed.
  Lemma setting_scale : forall {A B} m (r : result A) (h : A -> B) (set : A -> mock) (set' : B -> mock), (forall a, set' (h a) = mock_u s (set a)) ->
    setting (mock_u s m) (result_map h r) set' = (mock_u s (fst (setting m r set)), snd (setting m r set)).
  Proof. intros A B m [a|e] h set set' H; cbn; auto. rewrite H. reflexivity. Qed.
  Lemma setting_same : forall {A} m (r : result A) (set set' : A -> mock), (forall a, set' a = mock_u s (set a)) ->
    setting (mock_u s m) r set' = (mock_u s (fst (setting m r set)), snd (setting m r set)).
  Proof. intros A m [a|e] set set' H; cbn; auto. rewrite H. reflexivity. Qed.
  Lemma step_scale : forall freq neg pm pm' c m o, same_pmesh s pm pm' ->
    step freq neg pm' c (mock_u s m) (op_u s o) = (mock_u s (fst (step freq neg pm c m o)), snd (step freq neg pm c m o)).
  Proof.
    intros freq neg pm pm' c m o HP. destruct o as [|bias lognormal|nbar inter|noise|f los|poisson uniform r comp|v]; cbn [op_u step].
    - cbn [mock_u m_seed m_box m_n]. destruct (m_seed m) as [[[[p los] noise] inv]|]; cbn [option_map]; auto.
      rewrite (complex_scale s Hs). apply setting_same. reflexivity.
    - cbn [mock_u m_box m_center m_n m_delta_k]. rewrite (real_scale s Hs). apply setting_same. intros d.
      destruct c; [reflexivity|]. unfold set_disp, set_delta_r, mock_u; cbn [m_box m_n m_center m_seed m_delta_k m_delta_r m_nbar m_norm m_disp m_position m_disps option_map].
      do 2 f_equal. extensionality i. extensionality x. apply (displacement_scale s Hs).
    - rewrite (select_scale s Hs). apply setting_scale. reflexivity.
    - rewrite (noise_scale s Hs). apply setting_same. reflexivity.
    - destruct c.
      + cbn [mock_u m_box m_center m_n m_delta_k m_delta_r]. rewrite <- (setting_same m _ (set_delta_r m) (set_delta_r (mock_u s m))) by reflexivity.
        f_equal. apply bind_ext. intros d. apply (eulerian_scale s Hs).
      + rewrite <- (setting_scale m _ (map (vscale s)) (set_position m) (set_position (mock_u s m))) by reflexivity.
        f_equal. cbn [mock_u m_position m_disps]. destruct (m_position m) as [p|]; cbn [option_map attribute bind result_map]; auto.
        destruct (m_disps m) as [d|]; cbn [option_map attribute bind result_map]; auto. apply lagrangian_scale.
    - replace (do d <- attribute (m_delta_r (mock_u s m)); do b <- attribute (m_nbar (mock_u s m));
               poisson_sample (m_box (mock_u s m)) (m_center (mock_u s m)) (m_n (mock_u s m)) d (times b (fun _ => 1)) poisson (parts pm') uniform)
        with (result_map (map (vscale s)) (do d <- attribute (m_delta_r m); do b <- attribute (m_nbar m); poisson_sample (m_box m) (m_center m) (m_n m) d (times b (fun _ => 1)) poisson (parts pm) uniform)).
      2: { cbn [mock_u m_box m_center m_n m_delta_r m_nbar]. destruct (m_delta_r m) as [d|]; cbn [attribute bind result_map]; auto.
           destruct (m_nbar m) as [b|]; cbn [option_map attribute bind result_map]; auto. destruct HP as (_ & -> & _).
           rewrite <- (sample_scale s Hs). f_equal. extensionality x. symmetry. apply times_scale. }
      destruct (do d <- attribute (m_delta_r m); _) as [p|e]; cbn [result_map]; [|reflexivity].
      destruct c; [reflexivity|]. cbv zeta. set (m1 := set_disps (set_position m p) p).
      change (set_disps (set_position (mock_u s m) (map (vscale s) p)) (map (vscale s) p)) with (mock_u s m1).
      rewrite <- (setting_scale m1 _ (map (vscale s)) (fun disps => set_disps (set_position m1 (map (wrap (m_box m1) (corner (m_box m1) (m_center m1))) (add_rows p disps))) disps)
        (fun disps => set_disps (set_position (mock_u s m1) (map (wrap (m_box (mock_u s m1)) (corner (m_box (mock_u s m1)) (m_center (mock_u s m1)))) (add_rows (map (vscale s) p) disps))) disps)).
      + f_equal. cbn [mock_u m_disp]. destruct (m_disp m1) as [d|]; cbn [option_map attribute bind result_map]; auto.
        assert (E : forall i, lagrangian_readout freq pm' (mock_u s m1) (map (vscale s) p) (Given (fun x => s * d i x)) r comp =
          result_map (map (Rmult s)) (lagrangian_readout freq pm m1 p (Given (d i)) r comp)).
        { intros i. unfold lagrangian_readout. cbn [bind]. apply readout_given; auto. }
        rewrite !E, bind_map, map_bind. apply bind_ext. intros x. rewrite bind_map, map_bind. apply bind_ext. intros y. rewrite bind_map, map_bind. apply bind_ext. intros z.
        cbn [result_map]. rewrite rows_scale. reflexivity.
      + intros disps. unfold set_disps, set_position, mock_u; cbn [m_box m_n m_center m_seed m_delta_k m_delta_r m_nbar m_norm m_disp m_position m_disps option_map].
        do 2 f_equal. unfold add_rows. rewrite combine_map2, !map_map. apply map_ext. intros [a b]. cbn [fst snd]. rewrite corner_scale, vscale_add. apply wrap_scale; auto.
    - unfold set_center, mock_u; cbn [m_box m_n m_center m_seed m_delta_k m_delta_r m_nbar m_norm m_disp m_position m_disps]. destruct v; reflexivity.
  Qed.
  Lemma run_scale : forall freq neg pm pm' c l m, same_pmesh s pm pm' ->
    Mesh_Model.run freq neg pm' c (mock_u s m) (map (op_u s) l) = (mock_u s (fst (Mesh_Model.run freq neg pm c m l)), snd (Mesh_Model.run freq neg pm c m l)).
  Proof.
    intros freq neg pm pm' c l. induction l as [|o l IH]; intros m HP; cbn [map Mesh_Model.run]; auto.
    rewrite (step_scale freq neg pm pm' c m o HP). destruct (step freq neg pm c m o) as [m1 r1]. cbn [fst snd]. rewrite IH by auto.
    destruct (Mesh_Model.run freq neg pm c m1 l) as [m2 rs]. reflexivity.
  Qed.
  Lemma new_scale : forall freq box n center power los noise inv,
    mock_new freq (vscale s box) n (arg_u s center) (power_u s power) los noise inv = result_map (mock_u s) (mock_new freq box n center power los noise inv).
  Proof.
    intros. unfold mock_new. rewrite map_bind. apply bind_ext. intros l. rewrite (complex_scale s Hs), map_bind. apply bind_ext. intros d. destruct center; reflexivity.
  Qed.
  Lemma rint_scale : forall a b, rint (s * a / (s * b)) = rint (a / b). Proof. intros. rewrite ratio_scale; auto. Qed.
End Proof.
