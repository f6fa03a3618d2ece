(** A box somewhere else: mocks. *)
Require Import Reals Lra Lia ZArith String List Bool FunctionalExtensionality.
From Verif Require Import Base Vec3 Isometry_Model Sky_Model Cutsky_Model Box_Model Rsd_Model Mock_Model Mesh_Model Remap_Model Unit_Spec Unit_Proof2 Move_Spec.
Import ListNotations.
Open Scope R_scope.

Section Mocks.
  Variable t : vec.
  Local Notation mv := (moved t).
  Ltac mring := unfold moved, vadd, vsub, vscale; cbn [vx vy vz]; f_equal; ring.
  Lemma corner_move : forall box center, corner box (mv center) = mv (corner box center).
  Proof. intros. unfold corner, moved, vadd; cbn [vx vy vz]. f_equal; ring. Qed.
  Lemma sample_move : forall box center n d b poisson parts uniform,
    poisson_sample box (mv center) n d b poisson parts uniform = result_map (map mv) (poisson_sample box center n d b poisson parts uniform).
  Proof.
    intros. unfold poisson_sample. rewrite corner_move. cbv zeta. destruct (forallb _ _); [|reflexivity]. cbn [result_map]. match goal with |- context [combine ?a ?b] => generalize (combine a b) end.
    intros l. apply (f_equal Ok). rewrite map_map. apply map_ext. intros x.
    generalize (corner box center) (fst x) (snd x). intros o a1 a2. mring.
  Qed.
  Lemma wrap_move : forall box o p, wrap box (mv o) (mv p) = mv (wrap box o p).
  Proof.
    intros. unfold wrap, moved, vadd; cbn [vx vy vz]. f_equal.
    - replace (vx p + vx t - (vx o + vx t)) with (vx p - vx o) by ring. ring.
    - replace (vy p + vy t - (vy o + vy t)) with (vy p - vy o) by ring. ring.
    - replace (vz p + vz t - (vz o + vz t)) with (vz p - vz o) by ring. ring.
  Qed.
  Lemma add_rows_move : forall p d, add_rows (map mv p) d = map mv (add_rows p d).
  Proof. unfold add_rows. induction p as [|x p IH]; intros [|y d]; auto. cbn [map combine fst snd]. rewrite IH. f_equal. mring. Qed.
  Lemma choose_move : forall m a, choose_field (mock_m t m) a = choose_field m a. Proof. reflexivity. Qed.
  Lemma readout_move : forall freq pm m ps a r comp, readout freq pm (mock_m t m) (map mv ps) a r comp = readout freq pm m ps a r comp.
  Proof.
    intros. unfold readout. rewrite choose_move. apply bind_ext. intros f. cbn [mock_m m_center m_box m_n]. rewrite map_map.
    rewrite (map_ext (fun x => vadd (vsub (mv x) (mv (m_center m))) (vscale (1 / 2) (m_box m))) (fun p => vadd (vsub p (m_center m)) (vscale (1 / 2) (m_box m)))) by (intros; mring).
    reflexivity.
  Qed.
  Lemma lagrangian_readout_move : forall freq pm m ps a r comp, lagrangian_readout freq pm (mock_m t m) (map mv ps) a r comp = lagrangian_readout freq pm m ps a r comp.
  Proof. intros. unfold lagrangian_readout. cbn [mock_m m_disp]. apply bind_ext. intros a'. apply readout_move. Qed.
  Lemma add_move : forall a b, map2_result (fun p r => Ok (vadd p r)) (map mv a) b = result_map (map mv) (map2_result (fun p r => Ok (vadd p r)) a b).
  Proof.
    induction a as [|x a IH]; intros [|y b]; cbn [map map2_result bind result_map]; auto. rewrite IH. destruct (map2_result _ a b); cbn [bind result_map map]; auto. do 2 f_equal. mring.
  Qed.
  Lemma lagrangian_rsd_move : forall pos disps f los, lagrangian_set_rsd (map mv pos) disps (FNum f) (Some los) = result_map (map mv) (lagrangian_set_rsd pos disps (FNum f) (Some los)).
  Proof.
    intros. unfold lagrangian_set_rsd. destruct (get_los los) as [v|e]; cbn [bind result_map]; auto. destruct (vector_projection disps [v]) as [r|e]; cbn [bind result_map]; auto. apply add_move.
  Qed.
  Lemma setting_move : forall {A B} m (r : result A) (h : A -> B) (set : A -> mock) (set' : B -> mock), (forall a, set' (h a) = mock_m t (set a)) ->
    setting (mock_m t m) (result_map h r) set' = (mock_m t (fst (setting m r set)), snd (setting m r set)).
  Proof. intros A B m r h set set' H. unfold setting. destruct r; cbn [result_map fst snd]; auto. rewrite H. reflexivity. Qed.
  Lemma setting_move1 : forall {A} m (r : result A) (set set' : A -> mock), (forall a, set' a = mock_m t (set a)) ->
    setting (mock_m t m) r set' = (mock_m t (fst (setting m r set)), snd (setting m r set)).
  Proof. intros A m r set set' H. unfold setting. destruct r; cbn [fst snd]; auto. rewrite H. reflexivity. Qed.
  Lemma step_move : forall freq neg pm c m o, place_free o -> (c = Lagrangian -> match o with Poisson _ _ _ _ => snd (step freq neg pm c m o) = Ok tt | _ => True end) ->
    step freq neg pm c (mock_m t m) (op_m t o) = (mock_m t (fst (step freq neg pm c m o)), snd (step freq neg pm c m o)).
  Proof.
    intros freq neg pm c m o P D. destruct o as [|bias lognormal|nbar il|noise|f los|poisson uniform r comp|v]; cbn [op_m].
    - cbn [step]. cbn [mock_m m_seed m_box m_n]. destruct (m_seed m) as [[[[p l] x] i]|]; auto. apply setting_move1. reflexivity.
    - cbn [step]. cbn [mock_m m_center m_box m_n m_delta_k]. destruct bias as [[b|b]|]; cbn [place_free] in P; [|contradiction|];
        (apply setting_move1; intros a; destruct c; reflexivity).
    - destruct nbar as [a|f]; [|contradiction]. apply setting_move1. reflexivity.
    - cbn [step]. change (white_noise (mock_m t m) noise) with (white_noise m noise). apply setting_move1. reflexivity.
    - destruct f as [f|f]; [|contradiction]. destruct los as [los|]; [|contradiction]. destruct c; cbn [step].
      + apply setting_move1. reflexivity.
      + cbn [mock_m m_position m_disps]. destruct (m_position m) as [p|]; cbn [option_map attribute bind]; [|reflexivity].
        destruct (m_disps m) as [d|]; cbn [attribute bind]; [|reflexivity]. rewrite lagrangian_rsd_move. apply setting_move. reflexivity.
    - cbn [step] in D |- *. cbn [mock_m m_delta_r m_nbar m_box m_center m_n m_disp].
      destruct (m_delta_r m) as [d|]; cbn [attribute bind] in *; [|destruct c; reflexivity]. destruct (m_nbar m) as [b|]; cbn [attribute bind] in *; [|destruct c; reflexivity].
      rewrite sample_move. destruct (poisson_sample _ _ _ _ _ _ _ _) as [p|e]; cbn [result_map]; [|destruct c; reflexivity]. destruct c; [reflexivity|].
      specialize (D eq_refl). cbn [m_disp set_disps set_position mock_m] in *.
      destruct (m_disp m) as [disp|]; cbn [attribute bind] in *; [|unfold setting in D; cbn [snd] in D; discriminate].
      set (m1 := set_disps (set_position m p) p) in *. set (m2 := set_disps (set_position (mock_m t m) (map mv p)) (map mv p)).
      assert (E : forall i, lagrangian_readout freq pm m2 (map mv p) (Given (disp i)) r comp = lagrangian_readout freq pm m1 p (Given (disp i)) r comp).
      { intros i. transitivity (lagrangian_readout freq pm (mock_m t m1) (map mv p) (Given (disp i)) r comp); [reflexivity|apply lagrangian_readout_move]. }
      rewrite !E. clear E. set (rows := do x <- _; _) in *. unfold setting in *. destruct rows as [d3|e]; cbn [fst snd] in *; [|discriminate].
      f_equal. subst m1 m2. unfold set_disps, set_position, mock_m; cbn [m_box m_n m_center m_seed m_delta_k m_delta_r m_nbar m_norm m_disp m_position m_disps option_map].
      f_equal. f_equal. rewrite corner_move, add_rows_move, !map_map. apply map_ext. intros; apply wrap_move.
    - reflexivity.
  Qed.
  Lemma run_move : forall freq neg pm c l m, Forall place_free l -> draws_return c l (snd (run freq neg pm c m l)) ->
    run freq neg pm c (mock_m t m) (map (op_m t) l) = (mock_m t (fst (run freq neg pm c m l)), snd (run freq neg pm c m l)).
  Proof.
    intros freq neg pm c l. induction l as [|o l IH]; intros m P D; cbn [run map]; auto. inversion P as [|? ? P1 P2]; subst. cbn [run] in D.
    destruct (step freq neg pm c m o) as [m1 r1] eqn:S1. destruct (run freq neg pm c m1 l) as [m2 rs] eqn:R1. cbn [snd] in D.
    pose proof (step_move freq neg pm c m o P1) as X. rewrite S1 in X. cbn [fst snd] in X. rewrite X.
    - specialize (IH m1 P2). rewrite R1 in IH. cbn [fst snd] in IH. rewrite IH; [reflexivity|]. intros C. specialize (D C). inversion D; auto.
    - intros C. specialize (D C). inversion D; subst. destruct o; auto.
  Qed.
End Mocks.
