(** From catalogs to sums over cells. *)
Require Import Reals Lra Lia ZArith List Permutation Bool.
From Verif Require Import Base Vec3 Isometry_Model Rsd_Model Rsd_Spec Density_Proof Mock_Model Mock_Spec Fourier_Proof Mock_Thm Mock_Thm2 Interlace_Thm Mesh_Thm Ens_Spec Ens_Proof Ens_Thm Ens_Thm2 Zel_Spec Zel_Proof.
Import ListNotations.
Open Scope R_scope.

Lemma rows_map : forall {B} (F G : B -> vec) u f l out, row_by_row (moved_along u f) (map F l) (map G l) out -> out = map (fun p => vadd (F p) (vscale (f * vdot (G p) u) u)) l.
Proof.
  intros B F G u f. induction l as [|a l IH]; intros [|q out] [L H]; try discriminate; auto. cbn [map]. f_equal.
  - apply (H 0%nat (F a) (G a) q); auto.
  - apply IH. split; [cbn in *; lia|]. intros i p v r P Q N. apply (H (S i) p v r); auto.
Qed.

Section Catalog.
Context {S T : Type} (E : (S -> R) -> R) (E' : (T -> R) -> R) (freq : nat -> nat -> BinNums.Z) (box center : vec) (n : idx) (d : idx -> R) (nbar f : R) (los : axis_arg) (u : vec)
  (poisson : S -> list R -> list nat) (parts : list (list idx)) (uniform : T -> nat -> list vec) (readout : nat -> vec -> R) (pos disps out : S -> T -> list vec) (k : idx).
Hypothesis EX : expectation E. Hypothesis EX' : expectation E'. Hypothesis SB : solid box. Hypothesis K : within n k. Hypothesis P : Permutation (concat parts) (cells n).
Hypothesis ST : forall t, stream (uniform t). Hypothesis SL : same_law E' uniform. Hypothesis PL : mean_numbers E poisson (means box n d (fun _ => nbar)). Hypothesis LM : los_means los u.
Hypothesis H1 : forall s t, lagrangian_sample box center n d (fun _ => nbar) (poisson s) parts (uniform t) readout = Ok (pos s t, disps s t).
Hypothesis H2 : forall s t, lagrangian_set_rsd (pos s t) (disps s t) (FNum f) (Some los) = Ok (out s t).
Let w := wave freq box n k.
Definition start (x : idx) (v : vec) : vec := vadd (node box center n x) (vmul v (diagonal box n)).
Definition psi (x : idx) (v : vec) : vec := V (readout 0%nat (start x v)) (readout 1%nat (start x v)) (readout 2%nat (start x v)).
Definition total_shift (x : idx) (v : vec) : R := vdot w (vadd (psi x v) (vscale (f * vdot (psi x v) u) u)).
Definition drawn (s : S) : list idx := flat_map (fun x => repeat x (nth (cell_id n x) (poisson s (means box n d (fun _ => nbar))) 0%nat)) (cells n).
Definition wave_of (x : idx) (v : vec) : cplx := cmul (expi (- angle freq box n k x v)) (expi (- total_shift x v)).
Lemma catalog_sum : forall s t, catalog_mode w (lower box center) (out s t) =
  Cx (Rsum (map (fun xv => re (wave_of (fst xv) (snd xv))) (combine (drawn s) (uniform t (length (drawn s)))))) (Rsum (map (fun xv => im (wave_of (fst xv) (snd xv))) (combine (drawn s) (uniform t (length (drawn s)))))).
Proof.
  intros s t. specialize (H1 s t). unfold lagrangian_sample in H1. destruct (poisson_sample _ _ _ _ _ _ _ _) as [init|] eqn:PS; [|discriminate]. cbn [bind] in H1. apply ok_inj in H1. injection H1 as E1 E2.
  apply poisson_inv in PS; auto. cbv zeta in PS. rewrite (map_flat_repeat (grid_point box n) (fun x => nth (cell_id n x) (poisson s (means box n d (fun _ => nbar))) 0%nat) (cells n)) in PS. fold (drawn s) in PS. rewrite map_length, combine_maps, map_map in PS. cbn [fst snd] in PS.
  set (xv := combine (drawn s) (uniform t (length (drawn s)))) in *.
  assert (I1 : init = map (fun a => start (fst a) (snd a)) xv). { rewrite PS. apply map_ext. intros [x v]. cbn [fst snd]. unfold start, vadd, vmul, grid_point, corner, cell_size, node, diagonal. cbn [vx vy vz]. f_equal; ring. }
  rewrite map_map in E1, E2. destruct (C41_rsd_fixed (pos s t) (disps s t) f los u) as (o & O1 & O2); auto; [rewrite <- E1, <- E2, !map_length; auto|]. rewrite (H2 s t) in O1. apply ok_inj in O1. subst o. rewrite <- E1, <- E2, I1 in O2. rewrite !map_map in O2.
  apply rows_map in O2. rewrite O2. unfold catalog_mode. rewrite !map_map.
  assert (W : forall a, turn (vdot w (vsub (vadd (fst (displaced box center readout (start (fst a) (snd a)))) (vscale (f * vdot (snd (displaced box center readout (start (fst a) (snd a)))) u) u)) (lower box center))) = wave_of (fst a) (snd a)).
  { intros [x v]. cbn [fst snd]. rewrite turn_expi. unfold displaced. cbn [fst snd]. change (lower box center) with (corner box center). unfold w. rewrite turn_wrap by auto. unfold wave_of. rewrite <- expi_add. f_equal.
    unfold total_shift, angle. fold (psi x v). set (q := psi x v). set (y := vscale _ u). clearbody q y. unfold w, start, vdot, vsub, vadd, step, corner, node, vmul, diagonal. cbn [vx vy vz]. ring. }
  f_equal; f_equal; apply map_ext; intro a; rewrite W; auto.
Qed.
Lemma catalog_mean : nonempty n -> cmean E (fun s => cmean E' (fun t => catalog_mode w (lower box center) (out s t))) =
  cmul (creal (nbar * volume box)) (cmul (creal (/ size n)) (csum (map (fun x => cmul (creal (1 + d x)) (cplaced E' uniform (wave_of x))) (cells n)))).
Proof.
  intro NE. pose proof (size_pos n NE) as SP. pose proof PL as PM. red in PM.
  assert (G : forall g : idx -> vec -> R, E (fun s => E' (fun t => Rsum (map (fun xv => g (fst xv) (snd xv)) (combine (drawn s) (uniform t (length (drawn s))))))) =
     nbar * volume box * (/ size n * Rsum (map (fun x => (1 + d x) * placed E' uniform (g x)) (cells n)))).
  { intro g. rewrite (E_ext E EX _ (fun s => Rsum (map (fun x => placed E' uniform (g x)) (drawn s)))) by (intro s; apply draws_mean; auto). unfold drawn.
    rewrite (repeated_mean E (fun s x => nth (cell_id n x) (poisson s (means box n d (fun _ => nbar))) 0%nat) (fun x => placed E' uniform (g x)) (cells n) EX).
    rewrite <- !Rmult_assoc, <- Rsum_scale. apply Rsum_map_ext. intros x X. apply cells_In in X. rewrite PM by (unfold means; rewrite map_length; apply cell_rank; auto). rewrite mean_of by auto. unfold cell_volume. field. lra. }
  apply cplx_eq.
  - cbn [cmean re]. rewrite (E_ext E EX _ (fun s => E' (fun t => Rsum (map (fun xv => re (wave_of (fst xv) (snd xv))) (combine (drawn s) (uniform t (length (drawn s)))))))) by (intro s; apply (E_ext E' EX'); intro t; rewrite catalog_sum; auto).
    rewrite (G (fun x v => re (wave_of x v))). cbn [cmul creal re im]. rewrite csum_re. rewrite (Rsum_map_ext (fun x => re (cmul (creal (1 + d x)) (cplaced E' uniform (wave_of x)))) (fun x => (1 + d x) * placed E' uniform (fun v => re (wave_of x v)))); [ring|]. intros x _. unfold cplaced, CE, placed. cbn. ring.
  - cbn [cmean im]. rewrite (E_ext E EX _ (fun s => E' (fun t => Rsum (map (fun xv => im (wave_of (fst xv) (snd xv))) (combine (drawn s) (uniform t (length (drawn s)))))))) by (intro s; apply (E_ext E' EX'); intro t; rewrite catalog_sum; auto).
    rewrite (G (fun x v => im (wave_of x v))). cbn [cmul creal re im]. rewrite csum_im. rewrite (Rsum_map_ext (fun x => im (cmul (creal (1 + d x)) (cplaced E' uniform (wave_of x)))) (fun x => (1 + d x) * placed E' uniform (fun v => im (wave_of x v)))); [ring|]. intros x _. unfold cplaced, CE, placed. cbn. ring.
Qed.
End Catalog.

(** ** The density at first order *)
Lemma exp_second : forall y, Rabs (exp y - 1 - y) <= y ^ 2 * exp (Rabs y).
Proof.
  assert (M : forall y, exists c, Rabs c <= Rabs y /\ exp y - 1 = y * exp c).
  { intro y. destruct (Rtotal_order y 0) as [L|[->|L] ].
    - destruct (MVT_cor2 exp exp y 0 L) as (c & Q & C); [intros; apply derivable_pt_lim_exp|]. exists c. split; [rewrite !Rabs_left by lra; lra|]. rewrite exp_0 in Q. lra.
    - exists 0. rewrite exp_0. split; lra.
    - destruct (MVT_cor2 exp exp 0 y L) as (c & Q & C); [intros; apply derivable_pt_lim_exp|]. exists c. split; [rewrite !Rabs_right by lra; lra|]. rewrite exp_0 in Q. lra. }
  intro y. destruct (M y) as (c & C & Q). destruct (M c) as (c' & C' & Q'). replace (exp y - 1 - y) with (y * (c * exp c')) by (rewrite <- Q', Q; ring || (rewrite Rmult_minus_distr_l; lra)).
  rewrite !Rabs_mult, (Rabs_right (exp c')) by (apply Rle_ge, Rlt_le, exp_pos). assert (X : exp c' <= exp (Rabs y)). { destruct (Req_dec c' (Rabs y)) as [->|N]; [lra|]. apply Rlt_le, exp_increasing. pose proof (Rle_abs c'). lra. }
  rewrite <- (pow2_abs y). pose proof (Rabs_pos y). pose proof (Rabs_pos c). pose proof (exp_pos c'). assert (Rabs c * exp c' <= Rabs y * exp (Rabs y)) by (apply Rmult_le_compat; lra). nra.
Qed.
Definition mean_of_field (n : idx) (a : idx -> R) : R := / size n * Rsum (map a (cells n)).
Lemma mean_bound : forall n a b, nonempty n -> (forall x, within n x -> Rabs (a x) <= b) -> Rabs (mean_of_field n a) <= b.
Proof.
  intros n a b NE H. pose proof (size_pos n NE) as SP. unfold mean_of_field. rewrite Rabs_mult, (Rabs_right (/ size n)) by (apply Rle_ge, Rlt_le, Rinv_0_lt_compat; auto).
  assert (B : Rabs (Rsum (map a (cells n))) <= size n * b) by (rewrite <- cells_length; apply sum_bound; intros x X; apply H, cells_In; auto).
  apply (Rmult_le_compat_l (/ size n)) in B; [|apply Rlt_le, Rinv_0_lt_compat; auto]. rewrite <- Rmult_assoc, Rinv_l, Rmult_1_l in B by lra. auto.
Qed.
Lemma mean_add : forall n f g, mean_of_field n (fun x => f x + g x) = mean_of_field n f + mean_of_field n g.
Proof. intros. unfold mean_of_field. rewrite Rsum_add. ring. Qed.
Lemma mean_scale : forall n c f, mean_of_field n (fun x => c * f x) = c * mean_of_field n f.
Proof. intros. unfold mean_of_field. rewrite Rsum_scale. ring. Qed.
Lemma mean_const : forall n c, nonempty n -> mean_of_field n (fun _ => c) = c.
Proof.
  intros n c NE. pose proof (size_pos n NE) as SP. unfold mean_of_field. replace (Rsum (map (fun _ => c) (cells n))) with (INR (length (cells n)) * c); [rewrite cells_length; field; lra|].
  induction (cells n) as [|x l IH]; [cbn; ring|]. cbn [length map]. rewrite S_INR. unfold Rsum in *. cbn [fold_right]. rewrite <- IH. ring.
Qed.
Lemma mean_ext : forall n f g, (forall x, within n x -> f x = g x) -> mean_of_field n f = mean_of_field n g.
Proof. intros n f g H. unfold mean_of_field. f_equal. apply Rsum_map_ext. intros x X. apply H, cells_In; auto. Qed.
Lemma mean_low : forall n f b, nonempty n -> (forall x, within n x -> b <= f x) -> b <= mean_of_field n f.
Proof.
  intros n f b NE H. pose proof (size_pos n NE) as SP. rewrite <- (mean_const n b NE). unfold mean_of_field. apply Rmult_le_compat_l; [apply Rlt_le, Rinv_0_lt_compat; auto|].
  assert (Q : forall l, (forall x, In x l -> b <= f x) -> Rsum (map (fun _ : idx => b) l) <= Rsum (map f l)).
  { intro l. induction l as [|x l IH]; intro L; unfold Rsum in *; cbn; [lra|]. specialize (IH (fun y Y => L y (or_intror Y))). specialize (L x (or_introl eq_refl)). lra. }
  apply Q. intros x X. apply H, cells_In; auto.
Qed.
Lemma lognormal_first : forall n a limit, nonempty n -> exists spread, forall e x, Rabs e <= limit -> within n x ->
  Rabs (exp (e * a x) / mean_of_field n (fun y => exp (e * a y)) - 1 - e * (a x - mean_of_field n a)) <= spread * e ^ 2.
Proof.
  intros n a limit NE. set (Y := Rsum (map (fun x => Rabs (a x)) (cells n))). set (c := Rabs limit * Y). set (q := Y ^ 2 * exp c). exists ((2 * q + 2 * Y * (Y + Rabs limit * q)) * exp c). intros e x L X.
  assert (HL : Rabs limit = limit) by (apply Rabs_right; pose proof (Rabs_pos e); lra). assert (PY : 0 <= Y) by apply total_pos. pose proof (Rabs_pos e) as PE. pose proof (exp_pos c) as PC. assert (PQ : 0 <= q) by (unfold q; pose proof (pow2_ge_0 Y); nra).
  assert (AY : forall y, within n y -> Rabs (a y) <= Y) by (intros y Y0; apply (below_total a); apply cells_In; auto).
  assert (EA : forall y, within n y -> Rabs (e * a y) <= Rabs e * Y) by (intros y Y0; rewrite Rabs_mult; apply Rmult_le_compat_l; auto).
  assert (EC : forall y, within n y -> Rabs (e * a y) <= c). { intros y Y0. eapply Rle_trans; [apply EA; auto|]. unfold c. rewrite HL. apply Rmult_le_compat_r; auto. }
  assert (EXL : forall p r, p <= r -> exp p <= exp r). { intros p r O. destruct (Req_dec p r) as [->|N]; [lra|]. apply Rlt_le, exp_increasing. lra. }
  pose (E1 := fun y => exp (e * a y) - 1 - e * a y). assert (E2 : e ^ 2 = Rabs e ^ 2) by (rewrite <- (pow2_abs e); ring).
  assert (B1 : forall y, within n y -> Rabs (E1 y) <= q * e ^ 2).
  { intros y Y0. unfold E1. eapply Rle_trans; [apply exp_second|]. assert ((e * a y) ^ 2 <= e ^ 2 * Y ^ 2). { rewrite <- (pow2_abs (e * a y)), E2. pose proof (EA y Y0). pose proof (Rabs_pos (e * a y)). assert (Rabs (e * a y) * Rabs (e * a y) <= Rabs e * Y * (Rabs e * Y)) by (apply Rmult_le_compat; auto). nra. }
    pose proof (EXL _ _ (EC y Y0)). pose proof (pow2_ge_0 (e * a y)). pose proof (exp_pos (Rabs (e * a y))). assert ((e * a y) ^ 2 * exp (Rabs (e * a y)) <= (e ^ 2 * Y ^ 2) * exp c) by (apply Rmult_le_compat; lra). unfold q. lra. }
  set (m := mean_of_field n (fun y => exp (e * a y))). set (mu := mean_of_field n a). set (r := mean_of_field n E1).
  assert (ME : m = 1 + e * mu + r). { unfold m, mu, r. rewrite <- mean_scale, <- (mean_const n 1 NE), <- !mean_add. apply mean_ext. intros y _. unfold E1. ring. }
  assert (ML : exp (- c) <= m). { apply mean_low; auto. intros y Y0. apply EXL. pose proof (EC y Y0) as Q. apply Rabs_le_inv in Q. lra. }
  pose proof (exp_pos (- c)) as PN. assert (IM : / m <= exp c). { rewrite <- (Rinv_inv (exp c)). rewrite <- exp_Ropp. apply Rinv_le_contravar; auto. }
  assert (BR : Rabs r <= q * e ^ 2) by (apply mean_bound; auto). assert (BM : Rabs mu <= Y) by (apply mean_bound; auto).
  replace (exp (e * a x) / m - 1 - e * (a x - mu)) with ((E1 x - r - e * (a x - mu) * (m - 1)) * / m) by (unfold E1; rewrite ME; field; rewrite <- ME; lra).
  assert (IP : 0 < / m) by (apply Rinv_0_lt_compat; lra). rewrite Rabs_mult, (Rabs_right (/ m)) by lra.
  assert (NB : Rabs (E1 x - r - e * (a x - mu) * (m - 1)) <= (2 * q + 2 * Y * (Y + Rabs limit * q)) * e ^ 2).
  { assert (M1 : Rabs (m - 1) <= Rabs e * (Y + Rabs limit * q)).
    { replace (m - 1) with (e * mu + r) by (rewrite ME; ring). eapply Rle_trans; [apply Rabs_triang|]. rewrite Rabs_mult, HL. assert (Rabs e * Rabs mu <= Rabs e * Y) by (apply Rmult_le_compat_l; auto). rewrite E2 in BR. assert (q * Rabs e ^ 2 <= q * (Rabs e * limit)) by (apply Rmult_le_compat_l; nra). nra. }
    assert (AM : Rabs (a x - mu) <= 2 * Y). { unfold Rminus. eapply Rle_trans; [apply Rabs_triang|]. rewrite Rabs_Ropp. pose proof (AY x X). lra. }
    assert (T1 : Rabs (E1 x - r) <= 2 * q * e ^ 2). { unfold Rminus. eapply Rle_trans; [apply Rabs_triang|]. rewrite Rabs_Ropp. pose proof (B1 x X). lra. }
    assert (T2 : Rabs (e * (a x - mu) * (m - 1)) <= 2 * Y * (Y + Rabs limit * q) * e ^ 2).
    { rewrite !Rabs_mult, E2. assert (Rabs (a x - mu) * Rabs (m - 1) <= 2 * Y * (Rabs e * (Y + Rabs limit * q))) by (apply Rmult_le_compat; auto using Rabs_pos).
      replace (Rabs e * Rabs (a x - mu) * Rabs (m - 1)) with (Rabs e * (Rabs (a x - mu) * Rabs (m - 1))) by ring. eapply Rle_trans; [apply Rmult_le_compat_l; [auto|exact H]|]. apply Req_le. ring. }
    unfold Rminus at 1. eapply Rle_trans; [apply Rabs_triang|]. rewrite Rabs_Ropp. lra. }
  assert (PX : 0 <= (2 * q + 2 * Y * (Y + Rabs limit * q)) * e ^ 2) by (eapply Rle_trans; [apply Rabs_pos|exact NB]).
  replace ((2 * q + 2 * Y * (Y + Rabs limit * q)) * exp c * e ^ 2) with ((2 * q + 2 * Y * (Y + Rabs limit * q)) * e ^ 2 * exp c) by ring.
  apply Rmult_le_compat; auto using Rabs_pos; lra.
Qed.
