(** Property C53: selection functions on a mesh, with interlacing. Vocabulary in Mock_Spec.v. *)
Require Import Reals ZArith List Bool Lra Lia.
From Verif Require Import Base Vec3 Sky_Model Density_Proof Mock_Model Mock_Spec Fourier_Proof Mock_Thm Mock_Thm2 Isometry_Proof Sky_Proof Sky_Thm.
Import ListNotations.
Open Scope R_scope.

(** Which index holds a frequency. *)
Definition aliased (q : BinNums.Z) (n k : nat) : bool := ((q - Z.of_nat k) mod Z.of_nat n =? 0)%Z.
Definition alias (q : BinNums.Z) (n : nat) : nat := Z.to_nat (q mod Z.of_nat n).
Lemma alias_ok : forall q n, (0 < n)%nat -> (alias q n < n)%nat /\ aliased q n (alias q n) = true /\ forall k, (k < n)%nat -> aliased q n k = true -> k = alias q n.
Proof.
  intros q n N. unfold alias, aliased. pose proof (Z.mod_pos_bound q (Z.of_nat n) ltac:(lia)) as B. split; [lia|]. split.
  - rewrite Z2Nat.id by lia. apply Z.eqb_eq. rewrite Zminus_mod_idemp_r, Z.sub_diag. apply Zmod_0_l.
  - intros k K H. apply Z.eqb_eq in H. apply Z.mod_divide in H; [|lia]. destruct H as [c C]. assert (q = Z.of_nat k + c * Z.of_nat n)%Z by lia. subst q. rewrite Z_mod_plus_full, Z.mod_small by lia. lia.
Qed.
Lemma freq_alias : forall freq n q, proper_freq freq -> (0 < n)%nat -> (2 * Z.abs q < Z.of_nat n)%Z -> freq n (alias q n) = q.
Proof.
  intros freq n q PF N Q. destruct (alias_ok q n N) as (L & A & _). destruct (PF n _ L) as [[a E] B]. unfold aliased in A. apply Z.eqb_eq in A. apply Z.mod_divide in A; [|lia]. destruct A as [c C].
  assert (D : (freq n (alias q n) - q = (a - c) * Z.of_nat n)%Z) by lia. assert (a - c = 0)%Z by nia. nia.
Qed.
Lemma turns_alias : forall q n x, (0 < n)%nat -> expi (turns (Z.of_nat (alias q n)) n x) = expi (turns q n x).
Proof.
  intros q n x N. destruct (alias_ok q n N) as (L & A & _). unfold aliased in A. apply Z.eqb_eq in A. apply Z.mod_divide in A; [|lia]. destruct A as [c C]. assert (NR : 0 < INR n) by (apply lt_0_INR; auto).
  replace (turns q n x) with (turns (Z.of_nat (alias q n)) n x + 2 * PI * IZR (c * Z.of_nat x)); [symmetry; apply expi_period|]. unfold turns. assert (E : q = (Z.of_nat (alias q n) + c * Z.of_nat n)%Z) by lia. rewrite E at 2.
  rewrite plus_IZR, !mult_IZR, <- !INR_IZR_INZ. field. lra.
Qed.
Notation freqs := (BinNums.Z * BinNums.Z * BinNums.Z)%type.
Definition theta (q : freqs) (n x : idx) : R := let '(q1, q2, q3) := q in turns3 q1 q2 q3 n x.
Definition neg3 (q : freqs) : freqs := let '(q1, q2, q3) := q in (- q1, - q2, - q3)%Z.
(** Phase of a wave across the diagonal of a cell. *)
Definition kappa (q : freqs) (n : idx) : R := let '(q1, q2, q3) := q in 2 * PI * (IZR q1 / INR (ix n) + IZR q2 / INR (iy n) + IZR q3 / INR (iz n)).
Definition gate (q : freqs) (n k : idx) : bool := let '(q1, q2, q3) := q in aliased q1 (ix n) (ix k) && aliased q2 (iy n) (iy k) && aliased q3 (iz n) (iz k).
Definition alias3 (q : freqs) (n : idx) : idx := let '(q1, q2, q3) := q in I (alias q1 (ix n)) (alias q2 (iy n)) (alias q3 (iz n)).
Lemma theta_neg : forall q n x, theta (neg3 q) n x = - theta q n x.
Proof. intros [[a b] c] n x. unfold theta, neg3, turns3, turns. rewrite !opp_IZR. unfold Rdiv. ring. Qed.
Lemma kappa_neg : forall q n, kappa (neg3 q) n = - kappa q n.
Proof. intros [[a b] c] n. unfold kappa, neg3. rewrite !opp_IZR. unfold Rdiv. ring. Qed.
Lemma resolved_neg : forall q n, resolved n q -> resolved n (neg3 q).
Proof. intros [[a b] c] n H. unfold resolved, neg3 in *. rewrite !Z.abs_opp. auto. Qed.
Lemma transform_wave : forall n b q k, nonempty n -> cmul (creal (/ size n)) (csum (map (fun y => cmul (cmul b (expi (theta q n y))) (expi (- phase n k y))) (cells n))) = if gate q n k then b else C0.
Proof.
  intros n b [[q1 q2] q3] k N. rewrite (csum_ext _ (fun y => cmul b (expi (turns3 (q1 - Z.of_nat (ix k)) (q2 - Z.of_nat (iy k)) (q3 - Z.of_nat (iz k)) n y)))).
  - rewrite csum_mul, orthogonal3 by auto. unfold gate, aliased. pose proof (size_pos n N). destruct (_ && _ && _)%bool; [|ring]. transitivity (cmul (cmul (creal (/ size n)) (creal (size n))) b); [ring|]. rewrite creal_mul, Rinv_l by lra. change (creal 1) with C1. ring.
  - intros y _. transitivity (cmul b (cmul (expi (theta (q1, q2, q3) n y)) (expi (- phase n k y)))); [ring|]. rewrite <- expi_add. f_equal. f_equal. rewrite phase_turns. unfold theta, turns3, turns. rewrite !minus_IZR. unfold Rdiv. ring.
Qed.
Lemma half_conj : forall z, creal (re z) = cadd (cmul (creal (1 / 2)) z) (cmul (creal (1 / 2)) (conj z)).
Proof. intros [a b]. apply cplx_eq; cbn; field. Qed.
Lemma conj_mul : forall a b, conj (cmul a b) = cmul (conj a) (conj b).
Proof. intros [a b] [c d]. apply cplx_eq; cbn; ring. Qed.
Lemma r2c_wave : forall n b q k, nonempty n -> r2c n (fun y => re (cmul b (expi (theta q n y)))) k =
  cadd (if gate q n k then cmul (creal (1 / 2)) b else C0) (if gate (neg3 q) n k then cmul (creal (1 / 2)) (conj b) else C0).
Proof.
  intros n b q k N. rewrite r2c_csum, <- !transform_wave by auto. rewrite (csum_ext _ (fun x => cadd (cmul (cmul (cmul (creal (1 / 2)) b) (expi (theta q n x))) (expi (- phase n k x))) (cmul (cmul (cmul (creal (1 / 2)) (conj b)) (expi (theta (neg3 q) n x))) (expi (- phase n k x))))).
  - rewrite csum_add. ring.
  - intros x _. rewrite half_conj, conj_mul, theta_neg, !expi_conj. ring.
Qed.
Lemma single_mode : forall freq box n q c s x, proper_freq freq -> solid box -> nonempty n -> resolved n q ->
  csum (map (fun k => cmul (cmul (if gate q n k then c else C0) (expi (s * vdot (wave freq box n k) (cell_size box n)))) (expi (phase n k x))) (cells n)) = cmul c (expi (s * kappa q n + theta q n x)).
Proof.
  intros freq box n [[q1 q2] q3] c s x PF (B1 & B2 & B3) (N1 & N2 & N3) (R1 & R2 & R3). destruct (alias_ok q1 _ N1) as (L1 & A1 & U1). destruct (alias_ok q2 _ N2) as (L2 & A2 & U2). destruct (alias_ok q3 _ N3) as (L3 & A3 & U3).
  rewrite (csum_single _ _ (alias3 (q1, q2, q3) n)).
  - unfold gate, alias3. cbn [ix iy iz]. rewrite A1, A2, A3. cbn [andb]. unfold wave, cell_size, vdot. cbn [ix iy iz vx vy vz]. rewrite !freq_alias by auto.
    rewrite phase_turns. cbn [ix iy iz]. unfold turns3. rewrite !expi_add, !turns_alias by auto. unfold theta, turns3. rewrite !expi_add. unfold kappa.
    apply lt_0_INR in N1, N2, N3. replace (2 * PI / vx box * IZR q1 * (vx box / INR (ix n)) + 2 * PI / vy box * IZR q2 * (vy box / INR (iy n)) + 2 * PI / vz box * IZR q3 * (vz box / INR (iz n))) with (2 * PI * (IZR q1 / INR (ix n) + IZR q2 / INR (iy n) + IZR q3 / INR (iz n))) by (field; repeat split; lra). ring.
  - apply cells_nodup.
  - apply cells_In. repeat split; auto.
  - intros k K NE. apply cells_In in K. destruct K as (K1 & K2 & K3). destruct (gate (q1, q2, q3) n k) eqn:G; [|ring]. unfold gate in G. apply andb_true_iff in G. destruct G as [G G3]. apply andb_true_iff in G. destruct G as [G1 G2]. elim NE. destruct k as [k1 k2 k3]. unfold alias3. cbn [ix iy iz] in *. f_equal; auto.
Qed.
Lemma filter_wave : forall freq box n b q s x, proper_freq freq -> solid box -> nonempty n -> resolved n q ->
  c2r n (fun k => cmul (r2c n (fun y => re (cmul b (expi (theta q n y)))) k) (expi (s * vdot (wave freq box n k) (cell_size box n)))) x = re (cmul b (expi (s * kappa q n + theta q n x))).
Proof.
  intros freq box n b q s x PF SB N RE. rewrite c2r_csum.
  rewrite (csum_ext _ (fun k => cadd (cmul (cmul (if gate q n k then cmul (creal (1 / 2)) b else C0) (expi (s * vdot (wave freq box n k) (cell_size box n)))) (expi (phase n k x)))
    (cmul (cmul (if gate (neg3 q) n k then cmul (creal (1 / 2)) (conj b) else C0) (expi (s * vdot (wave freq box n k) (cell_size box n)))) (expi (phase n k x))))).
  2:{ intros k _. rewrite r2c_wave by auto. ring. }
  rewrite csum_add, !single_mode by (auto using resolved_neg). rewrite kappa_neg, theta_neg. replace (s * - kappa q n + - theta q n x) with (- (s * kappa q n + theta q n x)) by ring. rewrite expi_conj. set (e := expi _). destruct b, e. cbn. field.
Qed.
Lemma c2r_add : forall n a b x, c2r n (fun k => cadd (a k) (b k)) x = c2r n a x + c2r n b x.
Proof. intros. rewrite !c2r_csum. rewrite (csum_ext _ (fun k => cadd (cmul (a k) (expi (phase n k x))) (cmul (b k) (expi (phase n k x))))); [rewrite csum_add; auto|]. intros; ring. Qed.
Lemma r2c_add : forall n f g k, r2c n (fun x => f x + g x) k = cadd (r2c n f k) (r2c n g k).
Proof.
  intros. rewrite !r2c_csum. rewrite (csum_ext _ (fun x => cadd (cmul (creal (f x)) (expi (- phase n k x))) (cmul (creal (g x)) (expi (- phase n k x))))); [rewrite csum_add; ring|]. intros. unfold creal, cmul, cadd. apply cplx_eq; cbn; ring.
Qed.
Lemma r2c_ext : forall n f g k, (forall x, within n x -> f x = g x) -> r2c n f k = r2c n g k.
Proof. intros n f g k H. rewrite !r2c_csum. f_equal. apply csum_ext. intros x X. apply cells_In in X. rewrite H; auto. Qed.
Lemma c2r_ext : forall n f g x, (forall k, f k = g k) -> c2r n f x = c2r n g x.
Proof. intros n f g x H. unfold c2r. apply Rsum_map_ext. intros k _. rewrite H. auto. Qed.
Lemma wave_at : forall box center n x t a q, solid box -> nonempty n -> plane_wave box (lower box center) (a, q) (moved box center n x t) = re (cmul (cmul a (expi (t * kappa q n))) (expi (theta q n x))).
Proof.
  intros box center n x t a [[q1 q2] q3] (B1 & B2 & B3) (N1 & N2 & N3). apply lt_0_INR in N1, N2, N3. transitivity (re (cmul a (expi (t * kappa (q1, q2, q3) n + theta (q1, q2, q3) n x)))).
  - unfold plane_wave. cbv zeta. replace (2 * PI * (IZR q1 * (vx (moved box center n x t) - vx (lower box center)) / vx box + IZR q2 * (vy (moved box center n x t) - vy (lower box center)) / vy box + IZR q3 * (vz (moved box center n x t) - vz (lower box center)) / vz box)) with (t * kappa (q1, q2, q3) n + theta (q1, q2, q3) n x); [cbn; ring|].
    unfold moved, diagonal, node, lower, vadd, vscale, cell_size, kappa, theta, turns3, turns. cbn [vx vy vz]. field. repeat split; lra.
  - rewrite expi_add. f_equal. ring.
Qed.
Lemma filter_waves : forall freq box center n l s t x, proper_freq freq -> solid box -> nonempty n -> Forall (fun w => resolved n (snd w)) l ->
  c2r n (fun k => cmul (r2c n (fun y => waves box (lower box center) l (moved box center n y t)) k) (expi (s * vdot (wave freq box n k) (cell_size box n)))) x = waves box (lower box center) l (moved box center n x (t + s)).
Proof.
  intros freq box center n l s t x PF SB N F. induction l as [|[a q] l IH]; inversion F; subst.
  - unfold waves. cbn [map]. rewrite c2r_csum, csum_zero; auto. intros k _. rewrite r2c_csum, csum_zero; [ring|]. intros. change (Rsum []) with 0. apply cplx_eq; cbn; ring.
  - assert (W : forall y t, waves box (lower box center) ((a, q) :: l) (moved box center n y t) = plane_wave box (lower box center) (a, q) (moved box center n y t) + waves box (lower box center) l (moved box center n y t)) by auto.
    rewrite W. rewrite (c2r_ext n _ (fun k => cadd (cmul (r2c n (fun y => re (cmul (cmul a (expi (t * kappa q n))) (expi (theta q n y)))) k) (expi (s * vdot (wave freq box n k) (cell_size box n))))
      (cmul (r2c n (fun y => waves box (lower box center) l (moved box center n y t)) k) (expi (s * vdot (wave freq box n k) (cell_size box n)))))).
    + rewrite c2r_add, filter_wave, IH by auto. f_equal. rewrite wave_at by auto. rewrite Rmult_plus_distr_r, !expi_add. f_equal. ring.
    + intro k. rewrite (r2c_ext n _ (fun y => re (cmul (cmul a (expi (t * kappa q n))) (expi (theta q n y))) + waves box (lower box center) l (moved box center n y t))); [rewrite r2c_add; ring|]. intros y _. rewrite W, wave_at by auto. auto.
Qed.
Definition offset_by (box center : vec) (n : idx) (t : R) : vec := vadd (corner box center) (vscale t (cell_size box n)).
Lemma point_moved : forall neg box center n x t, solid box -> within n x -> point neg box (offset_by box center n t) n x = moved box center n x t.
Proof. intros neg box center n x t (B1 & B2 & B3) (W1 & W2 & W3). unfold point, moved, diagonal, node, offset_by, cell_size, corner, vadd, vscale. cbn [vx vy vz]. rewrite !slab_ok by auto. f_equal; ring. Qed.
Lemma paint_ok : forall neg box center n nbar t (value : idx -> R), solid box -> (forall x, within n x -> moved box center n x t <> vzero) ->
  (forall x d ra dec, within n x -> cartesian_to_sky true (moved box center n x t) = Ok (d, ra, dec) -> nbar d ra dec = value x) ->
  exists mesh, paint neg box (offset_by box center n t) n nbar = Ok mesh /\ forall x, within n x -> mesh x = value x.
Proof.
  intros neg box center n nbar t value SB NZ H. unfold paint. apply (tabulate_ok n _ 0 value). intros x W. rewrite point_moved by auto.
  destruct (C07_cartesian_sky_cartesian true _ (NZ x W)) as (d & ra & dec & E & _). rewrite E. cbn [bind]. f_equal. eapply H; eauto.
Qed.
Section Loop.
Variables (freq : nat -> nat -> BinNums.Z) (neg : nat -> nat -> bool) (box center : vec) (n : idx) (nbar : R -> R -> R -> R) (l : list (cplx * freqs)) (order : nat).
Hypotheses (PF : proper_freq freq) (SB : solid box) (NE : nonempty n) (RL : Forall (fun w => resolved n (snd w)) l).
Hypothesis NB : forall p d ra dec, cartesian_to_sky true p = Ok (d, ra, dec) -> nbar d ra dec = waves box (lower box center) l p.
Hypothesis NZ : forall x i, within n x -> (i < order)%nat -> moved box center n x (- INR i / 2) <> vzero.
Lemma interlace_loop : forall todo i acc, (1 <= i)%nat -> (i + todo = order)%nat ->
  exists out, interlace freq neg box (offset_by box center n (- INR (i - 1) / 2)) n nbar order i todo acc = Ok out /\
    forall x, within n x -> c2r n out x = c2r n acc x + Rsum (map (fun j => waves box (lower box center) l (moved box center n x (INR j / INR order - INR j / 2))) (seq i todo)).
Proof.
  induction todo as [|todo IH]; intros i acc I1 I2; cbn [interlace].
  - exists acc. split; auto. intros x _. cbn. ring.
  - assert (EO : vsub (offset_by box center n (- INR (i - 1) / 2)) (vscale (1 / 2) (cell_size box n)) = offset_by box center n (- INR (S i - 1) / 2)).
    { unfold offset_by, vsub, vadd, vscale. cbn [vx vy vz]. rewrite !minus_INR by lia. rewrite !S_INR. change (INR 0) with 0. f_equal; field. }
    rewrite EO. destruct (paint_ok neg box center n nbar (- INR (S i - 1) / 2) (fun x => waves box (lower box center) l (moved box center n x (- INR (S i - 1) / 2))) SB) as [mesh [P1 P2]].
    + intros x W. apply NZ; auto. lia.
    + intros x d ra dec W E. apply NB; auto.
    + rewrite P1. cbn [bind]. match goal with |- context [interlace _ _ _ _ _ _ _ _ _ ?a] => destruct (IH (S i) a ltac:(lia) ltac:(lia)) as [out [O1 O2]] end. exists out. split; [exact O1|].
      intros x W. rewrite O2, c2r_add by auto. rewrite (c2r_ext n (fun k => cmul (r2c n mesh k) _) (fun k => cmul (r2c n (fun y => waves box (lower box center) l (moved box center n y (- INR (S i - 1) / 2))) k) (expi (INR i / INR order * vdot (wave freq box n k) (cell_size box n))))).
      * rewrite filter_waves by auto. cbn [seq map]. unfold Rsum. cbn [fold_right]. replace (S i - 1)%nat with i by lia. replace (- INR i / 2 + INR i / INR order) with (INR i / INR order - INR i / 2) by (unfold Rdiv; ring). ring.
      * intro k. f_equal. apply r2c_ext. auto.
Qed.
End Loop.
Lemma offset_zero : forall box center n, offset_by box center n (- INR (1 - 1) / 2) = corner box center.
Proof. intros. change (INR (1 - 1)) with 0. replace (- 0 / 2) with 0 by field. unfold offset_by, corner, vadd, vscale. cbn [vx vy vz]. f_equal; ring. Qed.
(** C53. Without interlacing, the mesh holds the selection function at its nodes. *)
Theorem C53_nodes : forall freq neg box center n nbar, solid box -> (forall x, within n x -> node box center n x <> vzero) ->
  exists mesh, set_selection freq neg box center n nbar 0 = Ok mesh /\
    forall x d ra dec, within n x -> cartesian_to_sky true (node box center n x) = Ok (d, ra, dec) -> mesh x = nbar d ra dec.
Proof.
  intros freq neg box center n nbar SB NZ. assert (M0 : forall x, moved box center n x (- INR (1 - 1) / 2) = node box center n x) by (intro; change (INR (1 - 1)) with 0; replace (- 0 / 2) with 0 by field; unfold moved, diagonal, vadd, vscale, node; cbn [vx vy vz]; f_equal; ring).
  destruct (paint_ok neg box center n nbar (- INR (1 - 1) / 2) (fun x => match cartesian_to_sky true (node box center n x) with Ok (d, ra, dec) => nbar d ra dec | Err _ => 0 end) SB) as [mesh [P1 P2]].
  - intros. rewrite M0. auto.
  - intros x d ra dec W E. rewrite M0 in E. rewrite E. auto.
  - unfold set_selection. rewrite <- (offset_zero box center n), P1. cbn [bind]. exists mesh. split; auto. intros x d ra dec W E. rewrite P2, E; auto.
Qed.
Print Assumptions C53_nodes.
(** With interlacing of any order, for a selection function that is a sum of waves the mesh resolves, the mesh holds the mean of its values at
    these points: the node moved along the diagonal of the cell by i / order - i / 2 cells. *)
Theorem C53_orders : forall freq neg box center n nbar l interlacing, let order := if Nat.eqb interlacing 1 then 2%nat else interlacing in
  proper_freq freq -> solid box -> nonempty n -> (1 <= interlacing)%nat -> Forall (fun w => resolved n (snd w)) l ->
  (forall p d ra dec, cartesian_to_sky true p = Ok (d, ra, dec) -> nbar d ra dec = waves box (lower box center) l p) ->
  (forall x i, within n x -> (i < order)%nat -> moved box center n x (- INR i / 2) <> vzero) ->
  exists mesh, set_selection freq neg box center n nbar interlacing = Ok mesh /\
    forall x, within n x -> mesh x = Rsum (map (fun i => waves box (lower box center) l (moved box center n x (INR i / INR order - INR i / 2))) (seq 0 order)) / INR order.
Proof.
  intros freq neg box center n nbar l interlacing order PF SB NE I1 RL NB NZ. assert (OR : (2 <= order)%nat) by (unfold order; destruct (Nat.eqb_spec interlacing 1); lia).
  destruct (paint_ok neg box center n nbar (- INR (1 - 1) / 2) (fun x => waves box (lower box center) l (moved box center n x (- INR (1 - 1) / 2))) SB) as [mesh [P1 P2]].
  - intros x W. apply (NZ x 0%nat); auto. lia.
  - intros. apply NB; auto.
  - unfold set_selection. rewrite <- (offset_zero box center n), P1. cbn [bind]. destruct interlacing as [|m]; [lia|]. fold order.
    destruct (interlace_loop freq neg box center n nbar l order PF SB NE RL NB NZ (order - 1) 1 (r2c n mesh) ltac:(lia) ltac:(lia)) as [out [O1 O2]]. rewrite O1. cbn [bind]. eexists. split; [reflexivity|].
    intros x W. cbv beta. rewrite O2 by auto. f_equal. destruct order as [|[|o]]; try lia. cbn [seq map Nat.sub]. unfold Rsum. cbn [fold_right]. f_equal.
    transitivity (c2r n (fun k => cmul (r2c n (fun y => waves box (lower box center) l (moved box center n y (- INR (1 - 1) / 2))) k) (expi (0 * vdot (wave freq box n k) (cell_size box n)))) x).
    + apply c2r_ext. intro k. rewrite Rmult_0_l, expi_0. rewrite (r2c_ext n mesh _ k P2). ring.
    + rewrite filter_waves by auto. f_equal. f_equal. change (INR (1 - 1)) with 0. change (INR 0) with 0. unfold Rdiv. ring.
Qed.
Print Assumptions C53_orders.
(** With two meshes (interlacing True or 2) all these points are the node: the shift is corrected. *)
Theorem C53_order_two : forall freq neg box center n nbar l interlacing, (interlacing = 1 \/ interlacing = 2)%nat ->
  proper_freq freq -> solid box -> nonempty n -> Forall (fun w => resolved n (snd w)) l ->
  (forall p d ra dec, cartesian_to_sky true p = Ok (d, ra, dec) -> nbar d ra dec = waves box (lower box center) l p) ->
  (forall x i, within n x -> (i < 2)%nat -> moved box center n x (- INR i / 2) <> vzero) ->
  exists mesh, set_selection freq neg box center n nbar interlacing = Ok mesh /\ forall x, within n x -> mesh x = waves box (lower box center) l (node box center n x).
Proof.
  intros freq neg box center n nbar l interlacing OI PF SB NE RL NB NZ. destruct (C53_orders freq neg box center n nbar l interlacing PF SB NE) as [mesh [M1 M2]]; auto.
  - lia.
  - destruct OI as [-> | ->]; cbn [Nat.eqb]; auto.
  - exists mesh. split; auto. intros x W. rewrite M2 by auto. assert (EO : (if Nat.eqb interlacing 1 then 2%nat else interlacing) = 2%nat) by (destruct OI as [-> | ->]; auto). rewrite EO. cbn [seq map]. unfold Rsum. cbn [fold_right].
    assert (M0 : forall t, t = 0 -> moved box center n x t = node box center n x) by (intros t ->; unfold moved, diagonal, vadd, vscale, node; cbn [vx vy vz]; f_equal; ring). rewrite !M0 by (change (INR 0) with 0; change (INR 1) with 1; change (INR 2) with 2; field). change (INR 2) with 2. field.
Qed.
Print Assumptions C53_order_two.

(** Selection functions that are such sums exist: sky coordinates give back positions. *)
Definition by_sky (density : vec -> R) (d ra dec : R) : R := density (sky_to_cartesian true None (NFloat d) (NFloat ra) (NFloat dec)).
Lemma sky_nonzero : forall p s, cartesian_to_sky true p = Ok s -> p <> vzero.
Proof.
  intros p s H ->. unfold cartesian_to_sky in H. rewrite distance_vnorm in H. assert (Z : vnorm vzero = 0) by (unfold vnorm, vdot, vzero; cbn [vx vy vz]; replace (0 * 0 + 0 * 0 + 0 * 0) with 0 by ring; apply sqrt_0).
  rewrite Z in H. destruct (Req_EM_T 0 0); [|contradiction]. discriminate.
Qed.
Lemma by_sky_ok : forall density p d ra dec, cartesian_to_sky true p = Ok (d, ra, dec) -> by_sky density d ra dec = density p.
Proof.
  intros density p d ra dec H. destruct (C07_cartesian_sky_cartesian true p (sky_nonzero _ _ H)) as (d' & ra' & dec' & E & _ & _ & _ & S). rewrite H in E. injection E as <- <- <-. unfold by_sky. rewrite S. auto.
Qed.
Example C53_case : proper_freq signed /\ solid (V 1 1 1) /\ nonempty (I 4 4 4) /\ Forall (fun w => resolved (I 4 4 4) (snd w)) [(Cx 5 0, (0, 0, 0)%Z); (Cx 1 2, (1, -1, 0)%Z)] /\
  (forall p d ra dec, cartesian_to_sky true p = Ok (d, ra, dec) -> by_sky (waves (V 1 1 1) (lower (V 1 1 1) (V 5 0 0)) [(Cx 5 0, (0, 0, 0)%Z); (Cx 1 2, (1, -1, 0)%Z)]) d ra dec = waves (V 1 1 1) (lower (V 1 1 1) (V 5 0 0)) [(Cx 5 0, (0, 0, 0)%Z); (Cx 1 2, (1, -1, 0)%Z)] p) /\
  (forall x i, within (I 4 4 4) x -> (i < 2)%nat -> moved (V 1 1 1) (V 5 0 0) (I 4 4 4) x (- INR i / 2) <> vzero).
Proof.
  split; [apply signed_proper|]. split; [repeat split; cbn; lra|]. split; [repeat split; cbn; lia|]. split; [repeat constructor; cbn; lia|]. split; [intros; apply by_sky_ok; auto|].
  intros x i W L E. apply (f_equal vx) in E. unfold moved, node, vadd, vscale, diagonal, vzero in E. cbn [vx vy vz ix iy iz] in E. pose proof (pos_INR (ix x)). assert (L' : INR i <= 1) by (change 1 with (INR 1); apply le_INR; lia). change (INR 4) with (1 + 1 + 1 + 1) in E. lra.
Qed.
(** Higher orders are wrong: the meshes are moved by half a cell each time, and the correction assumes one over the order. *)
Theorem C53_order_three_refuted : exists freq neg box center n nbar l mesh, proper_freq freq /\ solid box /\ nonempty n /\ Forall (fun w => resolved n (snd w)) l /\
  (forall p d ra dec, cartesian_to_sky true p = Ok (d, ra, dec) -> nbar d ra dec = waves box (lower box center) l p) /\
  set_selection freq neg box center n nbar 3 = Ok mesh /\ within n (I 0 0 0) /\ mesh (I 0 0 0) < waves box (lower box center) l (node box center n (I 0 0 0)).
Proof.
  exists signed, (fun _ _ => false), (V 1 1 1), (V 5 0 0), (I 3 1 1), (by_sky (waves (V 1 1 1) (lower (V 1 1 1) (V 5 0 0)) [(Cx 1 0, (1, 0, 0)%Z)])), [(Cx 1 0, (1, 0, 0)%Z)].
  assert (SB : solid (V 1 1 1)) by (repeat split; cbn; lra). assert (NE : nonempty (I 3 1 1)) by (repeat split; cbn; lia).
  assert (RL : Forall (fun w => resolved (I 3 1 1) (snd w)) [(Cx 1 0, (1, 0, 0)%Z)]) by (repeat constructor; cbn; lia).
  assert (NB : forall p d ra dec, cartesian_to_sky true p = Ok (d, ra, dec) -> by_sky (waves (V 1 1 1) (lower (V 1 1 1) (V 5 0 0)) [(Cx 1 0, (1, 0, 0)%Z)]) d ra dec = waves (V 1 1 1) (lower (V 1 1 1) (V 5 0 0)) [(Cx 1 0, (1, 0, 0)%Z)] p) by (intros; apply by_sky_ok; auto).
  destruct (C53_orders signed (fun _ _ => false) (V 1 1 1) (V 5 0 0) (I 3 1 1) _ _ 3 signed_proper SB NE ltac:(lia) RL NB) as [mesh [M1 M2]].
  - intros x i W L E. apply (f_equal vx) in E. unfold moved, node, vadd, vscale, diagonal, vzero in E. cbn [vx vy vz ix iy iz Nat.eqb] in E, L. pose proof (pos_INR (ix x)). assert (L' : INR i <= 2) by (change 2 with (INR 2); apply le_INR; lia). change (INR 3) with (1 + 1 + 1) in E. lra.
  - exists mesh. split; [exact signed_proper|]. do 4 (split; [assumption|]). split; [exact M1|]. assert (W0 : within (I 3 1 1) (I 0 0 0)) by (repeat split; cbn; lia). split; auto. rewrite M2 by auto. cbn [Nat.eqb seq map]. unfold waves. cbn [map]. unfold Rsum. cbn [fold_right].
    replace (node (V 1 1 1) (V 5 0 0) (I 3 1 1) (I 0 0 0)) with (moved (V 1 1 1) (V 5 0 0) (I 3 1 1) (I 0 0 0) 0) by (unfold moved, vadd, vscale, node; cbn [vx vy vz]; f_equal; ring).
    rewrite !wave_at by auto. assert (T0 : theta (1, 0, 0)%Z (I 3 1 1) (I 0 0 0) = 0) by (unfold theta, turns3, turns; cbn; field). rewrite T0, expi_0. unfold C1, cmul, expi. cbn [re im]. assert (K : kappa (1, 0, 0)%Z (I 3 1 1) = 2 * PI / 3) by (unfold kappa; cbn; field). rewrite K.
    change (INR 0) with 0. change (INR 1) with 1. change (INR 2) with 2. change (INR 3) with (1 + 1 + 1). replace (0 * (2 * PI / 3)) with 0 by ring. replace ((0 / (1 + 1 + 1) - 0 / 2) * (2 * PI / 3)) with 0 by field. rewrite cos_0, sin_0.
    replace ((1 / (1 + 1 + 1) - 1 / 2) * (2 * PI / 3)) with (- (PI / 9)) by field. replace ((2 / (1 + 1 + 1) - 2 / 2) * (2 * PI / 3)) with (- (2 * PI / 9)) by field. rewrite !cos_neg.
    pose proof (COS_bound (PI / 9)) as [_ Cb]. assert (C2 : cos (2 * PI / 9) < 1). { rewrite <- cos_0. pose proof PI_RGT_0. apply cos_decreasing_1; lra. } lra.
Qed.
Print Assumptions C53_order_three_refuted.
