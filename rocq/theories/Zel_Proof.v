(** Lemmas on displaced catalogs at first order. *)
Require Import Reals Lra Lia ZArith List Permutation.
From Verif Require Import Base Vec3 Isometry_Model Rsd_Model Rsd_Spec Density_Proof Mock_Model Mock_Spec Fourier_Proof Mock_Thm Mock_Thm2 Interlace_Thm Mesh_Thm Ens_Spec Ens_Proof Ens_Thm Ens_Thm2 Zel_Spec.
Import ListNotations.
Open Scope R_scope.

Lemma turn_expi : forall t, turn t = expi (- t).
Proof. intro t. apply cplx_eq; cbn; [rewrite cos_neg|rewrite sin_neg]; auto. Qed.

(** ** Plane waves at second order *)
Lemma cos_second : forall a, Rabs (cos a - 1) <= a ^ 2 / 2.
Proof.
  intro a. assert (C : cos a = 1 - 2 * (sin (a / 2) * sin (a / 2))). { replace a with (2 * (a / 2)) at 1 by lra. rewrite cos_2a_sin. ring. }
  assert (S : Rabs (sin (a / 2)) <= Rabs (a / 2)).
  { assert (P : forall x, 0 <= x -> Rabs (sin x) <= x).
    { intros x X. destruct (Rle_lt_dec x 1) as [L|L].
      - destruct (Req_dec x 0) as [->|N]; [rewrite sin_0, Rabs_R0; lra|]. pose proof (sin_lt_x x ltac:(lra)). rewrite Rabs_right; [lra|]. apply Rle_ge, sin_ge_0; auto. pose proof PI2_1. lra.
      - pose proof (SIN_bound x) as [B1 B2]. apply Rabs_le. lra. }
    destruct (Rle_lt_dec 0 (a / 2)) as [L|L]; [rewrite (Rabs_right (a / 2)) by lra; auto|].
    replace (a / 2) with (- (- (a / 2))) at 1 by ring. rewrite sin_neg, Rabs_Ropp, (Rabs_left (a / 2)) by lra. apply P. lra. }
  rewrite C. replace (1 - 2 * (sin (a / 2) * sin (a / 2)) - 1) with (- (2 * (sin (a / 2) * sin (a / 2)))) by ring. rewrite Rabs_Ropp, Rabs_right; [|nra].
  assert (Q : sin (a / 2) * sin (a / 2) <= (a / 2) * (a / 2)). { apply (Rsqr_le_abs_1 _ _ S). }
  lra.
Qed.
Lemma sin_second : forall a, Rabs (sin a - a) <= a ^ 2.
Proof.
  assert (P : forall a, 0 <= a -> Rabs (sin a - a) <= a ^ 2).
  { intros a A. destruct (Req_dec a 0) as [->|N]; [rewrite sin_0, Rminus_0_r, Rabs_R0; nra|]. pose proof (sin_lt_x a ltac:(lra)) as U. rewrite Rabs_left by lra.
    destruct (MVT_cor2 sin cos 0 a ltac:(lra)) as (c & E & C); [intros; apply derivable_pt_lim_sin|]. rewrite sin_0 in E. pose proof (cos_second c) as Q. apply Rabs_le_inv in Q. pose proof (SIN_bound a).
    destruct (Rle_lt_dec a 2); [|nra]. assert (1 - cos c <= a * a / 2) by nra. assert (a * (1 - cos c) <= a * (a * a / 2)) by (apply Rmult_le_compat_l; lra). assert (a * a * a <= 2 * (a * a)) by nra. nra. }
  intro a. destruct (Rle_lt_dec 0 a) as [L|L]; auto. replace (sin a - a) with (- (sin (- a) - - a)) by (rewrite sin_neg; ring). rewrite Rabs_Ropp. replace (a ^ 2) with ((- a) ^ 2) by ring. apply P. lra.
Qed.

(** ** Waves of the box *)
Lemma turn_step : forall freq box n k z, proper_freq freq -> solid box -> within n k -> expi (vdot (wave freq box n k) (step box n z)) = expi (phase n k z).
Proof.
  intros freq box n k z PF (B1 & B2 & B3) (K1 & K2 & K3). destruct (PF _ _ K1) as [ [a A] _]. destruct (PF _ _ K2) as [ [b B] _]. destruct (PF _ _ K3) as [ [c C] _].
  assert (N1 : INR (ix n) <> 0) by (apply not_0_INR; lia). assert (N2 : INR (iy n) <> 0) by (apply not_0_INR; lia). assert (N3 : INR (iz n) <> 0) by (apply not_0_INR; lia).
  rewrite <- (expi_period (phase n k z) (a * Z.of_nat (ix z) + b * Z.of_nat (iy z) + c * Z.of_nat (iz z))). f_equal.
  unfold vdot, wave, step, phase. cbn [vx vy vz]. rewrite A, B, C, !plus_IZR, !mult_IZR, <- !INR_IZR_INZ. field. repeat split; auto; lra.
Qed.
(** Wrapping into the box does not change waves of the box. *)
Lemma turn_wrap : forall freq box n k o p r, solid box -> expi (- vdot (wave freq box n k) (vsub (vadd (wrap box o p) r) o)) = expi (- vdot (wave freq box n k) (vsub (vadd p r) o)).
Proof.
  intros freq box n k o p r (B1 & B2 & B3).
  rewrite <- (expi_period (- vdot (wave freq box n k) (vsub (vadd p r) o)) (freq (ix n) (ix k) * Rfloor ((vx p - vx o) / vx box) + freq (iy n) (iy k) * Rfloor ((vy p - vy o) / vy box) + freq (iz n) (iz k) * Rfloor ((vz p - vz o) / vz box))).
  f_equal. unfold vdot, wave, wrap, Rmod, vsub, vadd. cbn [vx vy vz]. rewrite !plus_IZR, !mult_IZR. field. repeat split; lra.
Qed.
(** ** Fields moved by whole cells *)
Lemma before1 : forall n x z, (x < n)%nat -> (z < n)%nat -> ((x + n - z) mod n < n)%nat /\ exists q : BinNums.Z, (Z.of_nat ((x + n - z) mod n) = Z.of_nat x - Z.of_nat z + q * Z.of_nat n)%Z.
Proof.
  intros n x z X Z0. split; [apply Nat.mod_upper_bound; lia|]. pose proof (Nat.div_mod (x + n - z) n ltac:(lia)) as D. exists (1 - Z.of_nat ((x + n - z) / n))%Z.
  set (m := ((x + n - z) mod n)%nat) in *. set (q := ((x + n - z) / n)%nat) in *. clearbody m q.
  assert (E : (Z.of_nat (x + n - z) = Z.of_nat x + Z.of_nat n - Z.of_nat z)%Z) by lia. apply (f_equal Z.of_nat) in D. rewrite E, Nat2Z.inj_add, Nat2Z.inj_mul in D. nia.
Qed.
Lemma before_inj1 : forall n x y z, (x < n)%nat -> (y < n)%nat -> (z < n)%nat -> ((x + n - z) mod n = (y + n - z) mod n)%nat -> x = y.
Proof.
  intros n x y z X Y Z0 E. destruct (before1 n x z X Z0) as [_ [a A] ]. destruct (before1 n y z Y Z0) as [_ [b B] ]. rewrite E in A. rewrite A in B.
  destruct (Z.lt_trichotomy a b) as [L|[L|L] ]; [|subst; lia|]; assert (Q : ((a - b) * Z.of_nat n = Z.of_nat y - Z.of_nat x)%Z) by lia; exfalso; nia.
Qed.
Lemma before_within : forall n x z, within n x -> within n z -> within n (before n x z).
Proof. intros n x z (A & B & C) (D & E & F). repeat split; apply before1; auto. Qed.
Lemma nodup_map_in : forall {A B} (f : A -> B) l, (forall x y, In x l -> In y l -> f x = f y -> x = y) -> NoDup l -> NoDup (map f l).
Proof.
  induction l as [|a l IH]; intros J N; cbn; constructor; inversion N as [|? ? N1 N2]; subst.
  - intro H. apply in_map_iff in H. destruct H as (y & E & Y). apply N1. rewrite <- (J y a (or_intror Y) (or_introl eq_refl) E). auto.
  - apply IH; auto. intros x y X Y. apply J; right; auto.
Qed.
Lemma before_perm : forall n z, within n z -> Permutation (map (fun x => before n x z) (cells n)) (cells n).
Proof.
  intros n z Z0. assert (ND : NoDup (map (fun x => before n x z) (cells n))).
  { apply nodup_map_in; [|apply cells_nodup]. intros [a b c] [a' b' c'] X Y E. apply cells_In in X, Y. destruct X as (X1 & X2 & X3). destruct Y as (Y1 & Y2 & Y3). destruct Z0 as (Z1 & Z2 & Z3).
    unfold before in E. cbn [ix iy iz] in *. injection E as E1 E2 E3. f_equal; [apply (before_inj1 (ix n) a a' (ix z))|apply (before_inj1 (iy n) b b' (iy z))|apply (before_inj1 (iz n) c c' (iz z))]; auto. }
  apply NoDup_Permutation_bis; auto; [rewrite map_length; auto|]. intros y Y. apply in_map_iff in Y. destruct Y as (x & <- & X). apply cells_In in X. apply cells_In, before_within; auto.
Qed.
Lemma phase_before : forall n k x z, within n x -> within n z -> expi (- phase n k x) = cmul (expi (- phase n k z)) (expi (- phase n k (before n x z))).
Proof.
  intros n k x z (A & B & C) (A' & B' & C'). rewrite <- expi_add. destruct (before1 _ _ _ A A') as [_ [a QA] ]. destruct (before1 _ _ _ B B') as [_ [b QB] ]. destruct (before1 _ _ _ C C') as [_ [c QC] ].
  rewrite <- (expi_period (- phase n k z + - phase n k (before n x z)) (Z.of_nat (ix k) * a + Z.of_nat (iy k) * b + Z.of_nat (iz k) * c)). f_equal.
  unfold phase, before. cbn [ix iy iz]. rewrite (INR_IZR_INZ ((ix x + ix n - ix z) mod ix n)), (INR_IZR_INZ ((iy x + iy n - iy z) mod iy n)), (INR_IZR_INZ ((iz x + iz n - iz z) mod iz n)), QA, QB, QC, !plus_IZR, !minus_IZR, !mult_IZR, <- !INR_IZR_INZ.
  field. repeat split; apply not_0_INR; lia.
Qed.
Lemma r2c_before : forall n F z k, within n z -> r2c n (fun x => F (before n x z)) k = cmul (expi (- phase n k z)) (r2c n F k).
Proof.
  intros n F z k Z0. rewrite !r2c_csum. rewrite <- (csum_perm _ _ (Permutation_map (fun x => cmul (creal (F x)) (expi (- phase n k x))) (before_perm n z Z0))). rewrite map_map.
  rewrite (csum_ext _ (fun x => cmul (expi (- phase n k z)) (cmul (creal (F (before n x z))) (expi (- phase n k (before n x z)))))); [rewrite csum_mul; ring|].
  intros x X. apply cells_In in X. rewrite (phase_before n k x z X Z0). ring.
Qed.

(** ** Modes of the displacement *)
Lemma clear_resolved : forall freq n k, proper_freq freq -> within n k -> clear n k -> resolved_mode freq n k.
Proof.
  assert (L : forall freq n i, proper_freq freq -> (i < n)%nat -> i <> Nat.div n 2 -> (2 * Z.abs (freq n i) < Z.of_nat n)%Z).
  { intros freq n i PF I0 H. destruct (PF n i I0) as [ [q Q] B]. assert (D : (2 * Z.abs (freq n i) <> Z.of_nat n)%Z); [|lia]. intro E. apply H. apply (Nat.div_unique n 2 i 0); [lia|].
    assert (M : exists m, (2 * Z.of_nat i = m * Z.of_nat n)%Z). { destruct (Z.abs_spec (freq n i)) as [ [_ W]|[_ W] ]; rewrite W, Q in E; [exists (1 - 2 * q)%Z|exists (- 1 - 2 * q)%Z]; lia. }
    assert (O : (0 < i)%nat). { destruct i; [|lia]. exfalso. rewrite Q in E. destruct (Z.lt_trichotomy q 0) as [L|[L|L] ]; [|subst; lia|]; nia. }
    destruct M as [m M]. assert (0 < m < 2)%Z by nia. assert (m = 1%Z) by lia. subst m. lia. }
  intros freq n k PF (A & B & C) [ (H1 & H2 & H3) _]. repeat split; apply L; auto.
Qed.
Lemma displacement_mode : forall freq box n dk k i, proper_freq freq -> hermitian n dk -> within n k -> clear n k -> (i < 3)%nat ->
  r2c n (displacement freq box n dk i) k = displacement_k freq box n dk i k.
Proof.
  intros freq box n dk k i PF HM K CL I3. unfold displacement. rewrite r2c_c2r_any; auto; [|eapply within_nonempty; eauto]. unfold symmetrised, displacement_k. cbv zeta.
  rewrite wave_opposite by (auto; apply clear_resolved; auto). rewrite (HM k K). destruct CL as [ (A1 & A2 & A3) (B1 & B2 & B3)].
  assert (Z1 : at_half n k i = false) by (unfold at_half; apply Nat.eqb_neq; destruct i as [|[|[|i] ] ]; auto; lia).
  assert (Z2 : at_half n (opposite n k) i = false) by (unfold at_half; apply Nat.eqb_neq; destruct i as [|[|[|i] ] ]; auto; lia). rewrite Z1, Z2.
  set (w := wave freq box n k). assert (S : safe_k2 (vscale (-1) w) = safe_k2 w).
  { unfold safe_k2. replace (vdot (vscale (-1) w) (vscale (-1) w)) with (vdot w w) by (unfold vdot, vscale; cbn; ring). auto. }
  rewrite S. assert (C : component (vscale (-1) w) i = - component w i) by (unfold component, vscale; destruct i as [|[|i] ]; cbn; ring). rewrite C. unfold Rdiv. generalize (/ safe_k2 w). intro v. apply cplx_eq; cbn [re im cmul cadd conj creal]; field.
Qed.

(** ** Averages of sums over objects *)
Lemma map_seq : forall {A B} (f : A -> B) l d, map f l = map (fun i => f (nth i l d)) (seq 0 (length l)).
Proof. intros A B f l d. induction l as [|a l IH]; cbn [map length seq]; auto. f_equal; auto. rewrite <- seq_shift, map_map. auto. Qed.
Lemma combine_seq : forall {A B} (l : list A) (m : list B) d d', length m = length l -> combine l m = map (fun i => (nth i l d, nth i m d')) (seq 0 (length l)).
Proof.
  intros A B l. induction l as [|a l IH]; intros [|b m] d d' L; try discriminate; auto. cbn [combine length seq map nth]. f_equal. rewrite <- seq_shift, map_map. apply IH. cbn in L. lia.
Qed.
Lemma combine_maps : forall {A B C D} (f : A -> C) (g : B -> D) l m, combine (map f l) (map g m) = map (fun p => (f (fst p), g (snd p))) (combine l m).
Proof. induction l as [|a l IH]; intros [|b m]; cbn; auto. f_equal. auto. Qed.
Lemma map_flat_repeat : forall {A B} (f : A -> B) (k : A -> nat) l, flat_map (fun x => repeat (f x) (k x)) l = map f (flat_map (fun x => repeat x (k x)) l).
Proof. induction l as [|a l IH]; cbn [flat_map map]; auto. rewrite map_app, IH, map_rep. auto. Qed.
Lemma Rsum_app : forall a b, Rsum (a ++ b) = Rsum a + Rsum b.
Proof. induction a as [|x a IH]; intros b; unfold Rsum in *; cbn; [ring|]. rewrite IH. ring. Qed.
Lemma Rsum_repeat : forall x k, Rsum (repeat x k) = INR k * x.
Proof. induction k as [|k IH]; [cbn; ring|]. rewrite S_INR. unfold Rsum in *. cbn [repeat fold_right]. rewrite IH. ring. Qed.

Section Draws.
Context {T : Type} (E' : (T -> R) -> R) (uniform : T -> nat -> list vec).
Hypothesis EX : expectation E'. Hypothesis ST : forall t, stream (uniform t). Hypothesis SL : same_law E' uniform.
Definition placed (g : vec -> R) : R := E' (fun t => g (nth 0 (uniform t 1%nat) vzero)).
Lemma draws_mean : forall (l : list idx) (g : idx -> vec -> R),
  E' (fun t => Rsum (map (fun xu => g (fst xu) (snd xu)) (combine l (uniform t (length l))))) = Rsum (map (fun x => placed (g x)) l).
Proof.
  intros l g. rewrite (map_seq (fun x => placed (g x)) l (I 0 0 0)).
  rewrite (E_ext E' EX _ (fun t => Rsum (map (fun i => g (nth i l (I 0 0 0)) (nth i (uniform t (length l)) vzero)) (seq 0 (length l))))).
  2:{ intros t. rewrite (combine_seq l (uniform t (length l)) (I 0 0 0) vzero) by apply ST. rewrite map_map. auto. }
  rewrite (E_sum E' EX (fun i t => g (nth i l (I 0 0 0)) (nth i (uniform t (length l)) vzero))). apply Rsum_map_ext. intros i I0. apply in_seq in I0. unfold placed. apply (SL (length l) i (g (nth i l (I 0 0 0)))). lia.
Qed.
End Draws.
Lemma repeated_mean : forall {S} (E : (S -> R) -> R) (number : S -> idx -> nat) (h : idx -> R) l, expectation E ->
  E (fun s => Rsum (map h (flat_map (fun x => repeat x (number s x)) l))) = Rsum (map (fun x => E (fun s => INR (number s x)) * h x) l).
Proof.
  intros S E number h l EX. rewrite (E_ext E EX _ (fun s => Rsum (map (fun x => h x * INR (number s x)) l))).
  - rewrite (E_sum E EX (fun x s => h x * INR (number s x))). apply Rsum_map_ext. intros x _. rewrite (E_scale E EX). ring.
  - intros s. induction l as [|x l IH]; auto. cbn [flat_map]. rewrite map_app, Rsum_app, IH, map_rep, Rsum_repeat. unfold Rsum. cbn [map fold_right]. ring.
Qed.
(** Averages are bounded by what bounds their terms. *)
Lemma average_bound : forall {S} (E : (S -> R) -> R) f b, average E -> (forall s, Rabs (f s) <= b) -> Rabs (E f) <= b.
Proof.
  intros S E f b [EX M] H. assert (U : 0 <= E (fun s => b + -1 * f s)) by (apply M; intro s; specialize (H s); apply Rabs_le_inv in H; lra).
  assert (L : 0 <= E (fun s => b + 1 * f s)) by (apply M; intro s; specialize (H s); apply Rabs_le_inv in H; lra).
  rewrite (E_add E EX (fun _ => b)), (E_const E EX), (E_scale E EX) in U. rewrite (E_add E EX (fun _ => b)), (E_const E EX), (E_scale E EX) in L. apply Rabs_le. lra.
Qed.
Lemma sum_bound : forall {A} (f : A -> R) b l, (forall x, In x l -> Rabs (f x) <= b) -> Rabs (Rsum (map f l)) <= INR (length l) * b.
Proof.
  induction l as [|x l IH]; intros H; [cbn; rewrite Rabs_R0; lra|]. cbn [length map]. rewrite S_INR. unfold Rsum in *. cbn [fold_right]. eapply Rle_trans; [apply Rabs_triang|].
  pose proof (H x (or_introl eq_refl)). specialize (IH (fun y Y => H y (or_intror Y))). lra.
Qed.
Lemma below_total : forall {A} (f : A -> R) l x, In x l -> Rabs (f x) <= Rsum (map (fun y => Rabs (f y)) l).
Proof.
  assert (P : forall {A} (f : A -> R) l, 0 <= Rsum (map (fun y => Rabs (f y)) l)).
  { intros A f l. unfold Rsum. induction l as [|y l IH]; cbn; [lra|]. pose proof (Rabs_pos (f y)). lra. }
  induction l as [|y l IH]; intros x []; unfold Rsum in *; cbn [map fold_right].
  - subst. specialize (P _ f l). unfold Rsum in P. lra.
  - specialize (IH x H). pose proof (Rabs_pos (f y)). lra.
Qed.
(** A weighted mean is not larger than the largest value. *)
Lemma weighted_bound : forall {A} (w f : A -> R) b l, (forall x, In x l -> 0 <= w x) -> (forall x, In x l -> Rabs (f x) <= b) -> Rabs (Rsum (map (fun x => w x * f x) l)) <= Rsum (map w l) * b.
Proof.
  induction l as [|x l IH]; intros W H; unfold Rsum in *; cbn [map fold_right]; [rewrite Rabs_R0; lra|]. eapply Rle_trans; [apply Rabs_triang|].
  specialize (IH (fun y Y => W y (or_intror Y)) (fun y Y => H y (or_intror Y))). specialize (W x (or_introl eq_refl)). specialize (H x (or_introl eq_refl)). rewrite Rabs_mult, (Rabs_right (w x)) by lra. nra.
Qed.

Section Slope.
Context {T : Type} (E : (T -> R) -> R) (uniform : T -> nat -> list vec) (freq : nat -> nat -> BinNums.Z) (box : vec) (n k : idx) (weight : vec -> idx -> R).
Hypothesis AV : average E. Hypothesis ST : forall t, stream (uniform t). Hypothesis PF : proper_freq freq. Hypothesis SB : solid box. Hypothesis K : within n k. Hypothesis IP : interpolation n weight.
Let EX := proj1 AV.
Let w := wave freq box n k.
Hypothesis NZ : w <> vzero.
Definition cplaced (g : vec -> cplx) : cplx := CE E (fun t => g (nth 0 (uniform t 1%nat) vzero)).
Lemma in_cell_one : forall t, between (V 0 0 0) (V 1 1 1) (nth 0 (uniform t 1%nat) vzero).
Proof. intro t. destruct (ST t 1%nat) as [L U]. apply U, nth_In. rewrite L. lia. Qed.
Lemma cplaced_ext : forall f g, (forall v, between (V 0 0 0) (V 1 1 1) v -> f v = g v) -> cplaced f = cplaced g.
Proof. intros f g H. apply (CE_ext E EX). intro t. apply H, in_cell_one. Qed.
Lemma cplaced_mul : forall a f, cplaced (fun v => cmul a (f v)) = cmul a (cplaced f).
Proof. intros a f. apply (CE_mul E EX). Qed.
Lemma cplaced_sum : forall {B} (f : B -> vec -> cplx) l, cplaced (fun v => csum (map (fun b => f b v) l)) = csum (map (fun b => cplaced (f b)) l).
Proof. intros B f l. apply (CE_sum E EX (fun b t => f b (nth 0 (uniform t 1%nat) vzero))). Qed.
Lemma cplaced_add : forall f g, cplaced (fun v => cadd (f v) (g v)) = cadd (cplaced f) (cplaced g).
Proof. intros f g. apply cplx_eq; cbn [cplaced CE cadd re im]; apply (E_add E EX). Qed.
Lemma cplaced_bound : forall f b, (forall v, between (V 0 0 0) (V 1 1 1) v -> Rabs (re (f v)) <= b /\ Rabs (im (f v)) <= b) -> Rabs (re (cplaced f)) <= b /\ Rabs (im (cplaced f)) <= b.
Proof. intros f b H. split; [apply (average_bound E (fun t => re (f (nth 0 (uniform t 1%nat) vzero))))|apply (average_bound E (fun t => im (f (nth 0 (uniform t 1%nat) vzero))))]; auto; intro t; apply H, in_cell_one. Qed.

Definition at_cell (v : vec) : cplx := expi (- vdot w (vmul v (diagonal box n))).
Definition angle (x : idx) (v : vec) : R := vdot w (vadd (step box n x) (vmul v (diagonal box n))).
Lemma angle_split : forall x v, expi (- angle x v) = cmul (expi (- phase n k x)) (at_cell v).
Proof.
  intros x v. unfold angle, at_cell. replace (- vdot w (vadd (step box n x) (vmul v (diagonal box n)))) with (- vdot w (step box n x) + - vdot w (vmul v (diagonal box n))) by (unfold vdot, vadd; cbn [vx vy vz]; ring).
  rewrite expi_add. f_equal. rewrite !expi_conj. f_equal. apply turn_step; auto.
Qed.
Lemma position_eq : position_window E uniform box n w = cplaced at_cell.
Proof. unfold position_window, cplaced. apply (CE_ext E EX). intro t. apply turn_expi. Qed.
Lemma reading_eq : reading_window E uniform weight box n w = cplaced (fun v => cmul (at_cell v) (csum (map (fun z => cmul (creal (weight v z)) (expi (- phase n k z))) (cells n)))).
Proof.
  unfold reading_window, cplaced. apply (CE_ext E EX). intro t. cbv zeta. set (v := nth 0 (uniform t 1%nat) vzero).
  transitivity (csum (map (fun z => cmul (creal (weight v z)) (turn (vdot w (vadd (vmul v (diagonal box n)) (step box n z))))) (cells n))).
  - apply cplx_eq; cbn [re im]; [rewrite csum_re|rewrite csum_im]; apply Rsum_map_ext; intros z _; cbn; ring.
  - rewrite <- csum_mul. apply csum_ext. intros z _. rewrite turn_expi.
    replace (vdot w (vadd (vmul v (diagonal box n)) (step box n z))) with (angle z v) by (unfold angle, vdot, vadd; cbn [vx vy vz]; ring). rewrite angle_split. ring.
Qed.
Lemma waves_cancel : csum (map (fun x => expi (- phase n k x)) (cells n)) = C0.
Proof.
  pose proof (within_nonempty n k K) as NE.
  rewrite (csum_ext _ (fun x => expi (turns3 (- Z.of_nat (ix k)) (- Z.of_nat (iy k)) (- Z.of_nat (iz k)) n x))).
  - rewrite orthogonal3 by auto. destruct ((- Z.of_nat (ix k)) mod Z.of_nat (ix n) =? 0)%Z eqn:Q1; auto; destruct ((- Z.of_nat (iy k)) mod Z.of_nat (iy n) =? 0)%Z eqn:Q2; auto; destruct ((- Z.of_nat (iz k)) mod Z.of_nat (iz n) =? 0)%Z eqn:Q3; auto.
    exfalso. apply NZ. apply Z.eqb_eq in Q1, Q2, Q3. destruct K as (K1 & K2 & K3).
    assert (Z0 : forall i m, (i < m)%nat -> ((- Z.of_nat i) mod Z.of_nat m = 0)%Z -> i = 0%nat).
    { intros i m L Q. apply Z.mod_divide in Q; [|lia]. destruct Q as [q Q]. destruct (Nat.eq_dec i 0); auto. exfalso. assert (q < 0)%Z by nia. nia. }
    unfold w. replace k with (I 0 0 0); [apply wave_zero; auto|]. destruct k as [a b c]. cbn [ix iy iz] in *. f_equal; symmetry; eapply Z0; eauto.
  - intros x _. f_equal. rewrite phase_turns. unfold turns3, turns. rewrite !opp_IZR. unfold Rdiv. ring.
Qed.

Context (beta G : idx -> R) (d : R -> idx -> R) (spread limit : R).
Hypothesis D : forall e x, Rabs e <= limit -> within n x -> Rabs (d e x - e * beta x) <= spread * e ^ 2.
Definition moved_by (x : idx) (v : vec) : R := Rsum (map (fun z => weight v z * G (before n x z)) (cells n)).
Definition slope : cplx := cadd (cmul (position_window E uniform box n w) (r2c n beta k)) (cmul (reading_window E uniform weight box n w) (cmul (Cx 0 (-1)) (r2c n G k))).
Lemma linear_part : forall e, cmul (creal (/ size n)) (csum (map (fun x => cplaced (fun v => cmul (expi (- angle x v)) (Cx (1 + e * beta x) (- (e * moved_by x v))))) (cells n))) = cmul (creal e) slope.
Proof.
  intro e. pose (tau := fun x => cplaced (fun v => cmul (at_cell v) (creal (moved_by x v)))).
  rewrite (csum_ext _ (fun x => cadd (cmul (cplaced at_cell) (cadd (expi (- phase n k x)) (cmul (creal e) (cmul (creal (beta x)) (expi (- phase n k x)))))) (cmul (Cx 0 (- e)) (cmul (expi (- phase n k x)) (tau x))))).
  2:{ intros x _. unfold tau. rewrite <- !cplaced_mul.
      transitivity (cplaced (fun v => cadd (cmul (cadd (expi (- phase n k x)) (cmul (creal e) (cmul (creal (beta x)) (expi (- phase n k x))))) (at_cell v)) (cmul (Cx 0 (- e)) (cmul (expi (- phase n k x)) (cmul (at_cell v) (creal (moved_by x v))))))).
      - apply cplaced_ext. intros v _. rewrite angle_split. replace (Cx (1 + e * beta x) (- (e * moved_by x v))) with (cadd (cadd C1 (cmul (creal e) (creal (beta x)))) (cmul (Cx 0 (- e)) (creal (moved_by x v)))) by (apply cplx_eq; cbn; ring). ring.
      - rewrite cplaced_add, !cplaced_mul. ring. }
  rewrite csum_add, !csum_mul, csum_add, csum_mul, waves_cancel.
  assert (Q : cmul (creal (/ size n)) (csum (map (fun x => cmul (expi (- phase n k x)) (tau x)) (cells n))) = cmul (reading_window E uniform weight box n w) (r2c n G k)).
  { rewrite reading_eq. unfold tau. rewrite (csum_ext _ (fun x => cplaced (fun v => cmul (expi (- phase n k x)) (cmul (at_cell v) (creal (moved_by x v)))))) by (intros; symmetry; apply cplaced_mul).
    rewrite <- cplaced_sum, <- cplaced_mul. match goal with |- _ = cmul (cplaced ?f) ?c => replace (cmul (cplaced f) c) with (cmul c (cplaced f)) by ring end. rewrite <- cplaced_mul. apply cplaced_ext. intros v _.
    rewrite (csum_ext _ (fun x => cmul (at_cell v) (csum (map (fun z => cmul (creal (weight v z)) (cmul (creal (G (before n x z))) (expi (- phase n k x)))) (cells n))))).
    - rewrite csum_mul, csum_swap. rewrite (csum_ext _ (fun z => cmul (cmul (creal (size n)) (r2c n G k)) (cmul (creal (weight v z)) (expi (- phase n k z))))).
      + rewrite csum_mul. pose proof (size_pos n (within_nonempty n k K)). replace (creal (/ size n)) with (creal (/ size n)) by auto.
        transitivity (cmul (cmul (creal (/ size n)) (creal (size n))) (cmul (r2c n G k) (cmul (at_cell v) (csum (map (fun z => cmul (creal (weight v z)) (expi (- phase n k z))) (cells n)))))); [ring|].
        rewrite creal_mul, Rinv_l by lra. change (creal 1) with C1. ring.
      + intros z Z0. apply cells_In in Z0. rewrite csum_mul. pose proof (r2c_before n G z k Z0) as B. rewrite r2c_csum in B. pose proof (size_pos n (within_nonempty n k K)).
        transitivity (cmul (creal (weight v z)) (cmul (creal (size n)) (cmul (expi (- phase n k z)) (r2c n G k)))); [|ring]. rewrite <- B. f_equal.
        transitivity (cmul (cmul (creal (size n)) (creal (/ size n))) (csum (map (fun x => cmul (creal (G (before n x z))) (expi (- phase n k x))) (cells n)))); [rewrite creal_mul, Rinv_r by lra; change (creal 1) with C1; ring|ring].
    - intros x _. unfold moved_by.
      replace (creal (Rsum (map (fun z => weight v z * G (before n x z)) (cells n)))) with (csum (map (fun z => cmul (creal (weight v z)) (creal (G (before n x z)))) (cells n))).
      + transitivity (cmul (at_cell v) (cmul (csum (map (fun z => cmul (creal (weight v z)) (creal (G (before n x z)))) (cells n))) (expi (- phase n k x)))); [ring|]. f_equal. rewrite <- csum_mul_r. apply csum_ext. intros z _. ring.
      + apply cplx_eq; [rewrite csum_re|rewrite csum_im]; cbn [creal re im]; [apply Rsum_map_ext; intros; cbn; ring|].
        rewrite (Rsum_map_ext _ (fun _ => 0)) by (intros; cbn; ring). clear. unfold Rsum. induction (cells n); cbn; lra. }
  unfold slope. rewrite position_eq. rewrite (r2c_csum n beta k).
  replace (cmul (reading_window E uniform weight box n w) (cmul (Cx 0 (-1)) (r2c n G k))) with (cmul (Cx 0 (-1)) (cmul (reading_window E uniform weight box n w) (r2c n G k))) by ring. rewrite <- Q.
  replace (Cx 0 (- e)) with (cmul (creal e) (Cx 0 (-1))) by (apply cplx_eq; cbn; ring). ring.
Qed.
Definition quantity (e : R) : cplx := cmul (creal (/ size n)) (csum (map (fun x => cmul (creal (1 + d e x)) (cplaced (fun v => cmul (expi (- angle x v)) (expi (- (e * moved_by x v)))))) (cells n))).
Definition rest (e : R) (x : idx) (v : vec) : cplx := Cx ((1 + d e x) * cos (e * moved_by x v) - (1 + e * beta x)) (- ((1 + d e x) * sin (e * moved_by x v)) + e * moved_by x v).
Let Mb := Rsum (map (fun x => Rabs (beta x)) (cells n)). Let M := Rsum (map (fun x => Rabs (G x)) (cells n)). Let B1 := Mb + Rabs spread * Rabs limit.
Let bound := (1 + Rabs limit * B1) * M ^ 2 + Rabs spread + B1 * M.
Lemma total_pos : forall (f : idx -> R) l, 0 <= Rsum (map (fun x => Rabs (f x)) l).
Proof. intros f l. unfold Rsum. induction l as [|x l IH]; cbn; [lra|]. pose proof (Rabs_pos (f x)). lra. Qed.
Lemma rest_bound : forall e x v, Rabs e <= limit -> within n x -> between (V 0 0 0) (V 1 1 1) v -> Rabs (re (rest e x v)) <= bound * e ^ 2 /\ Rabs (im (rest e x v)) <= bound * e ^ 2.
Proof.
  intros e x v L X V0. destruct (IP v V0) as [W1 W2].
  assert (HM : Rabs (moved_by x v) <= M). { unfold moved_by. rewrite <- (Rmult_1_l M), <- W2. apply (weighted_bound (weight v) (fun z => G (before n x z))). - intros z Z0. apply W1, cells_In; auto. - intros z Z0. apply cells_In in Z0. apply (below_total G). apply cells_In, before_within; auto. }
  assert (HB : Rabs (beta x) <= Mb) by (apply (below_total beta); apply cells_In; auto). specialize (D e x L X).
  assert (HL : Rabs limit = limit) by (apply Rabs_right; pose proof (Rabs_pos e); lra). assert (PM : 0 <= M) by apply total_pos. assert (PB : 0 <= Mb) by apply total_pos. pose proof (Rabs_pos spread) as PS. pose proof (Rabs_pos e) as PE.
  assert (E2 : e ^ 2 = Rabs e ^ 2) by (rewrite <- (pow2_abs e); ring).
  assert (D' : Rabs (d e x - e * beta x) <= Rabs spread * Rabs e ^ 2). { eapply Rle_trans; [exact D|]. rewrite E2. apply Rmult_le_compat_r; [nra|]. apply Rle_abs. }
  assert (EB : Rabs (e * beta x) <= Rabs e * Mb) by (rewrite Rabs_mult; apply Rmult_le_compat_l; auto).
  assert (PB1 : 0 <= B1) by (unfold B1; rewrite HL; nra).
  assert (HD : Rabs (d e x) <= Rabs e * B1).
  { replace (d e x) with ((d e x - e * beta x) + e * beta x) by ring. eapply Rle_trans; [apply Rabs_triang|]. unfold B1. rewrite HL. assert (Rabs spread * Rabs e ^ 2 <= Rabs spread * (Rabs e * limit)) by (apply Rmult_le_compat_l; nra). nra. }
  set (a := e * moved_by x v). assert (HA : Rabs a <= Rabs e * M) by (unfold a; rewrite Rabs_mult; apply Rmult_le_compat_l; auto).
  assert (A2 : a ^ 2 <= Rabs e ^ 2 * M ^ 2). { rewrite <- (pow2_abs a). pose proof (Rabs_pos a). assert (Rabs a * Rabs a <= (Rabs e * M) * (Rabs e * M)) by (apply Rmult_le_compat; auto). nra. }
  assert (H1 : Rabs (1 + d e x) <= 1 + Rabs limit * B1). { eapply Rle_trans; [apply Rabs_triang|]. rewrite Rabs_R1, HL. assert (Rabs e * B1 <= limit * B1) by (apply Rmult_le_compat_r; auto). lra. }
  pose proof (cos_second a) as CS. pose proof (sin_second a) as SS. pose proof (pow2_ge_0 a) as PA. pose proof (Rabs_pos (1 + d e x)) as P1.
  assert (HK : Rabs (1 + d e x) * a ^ 2 <= (1 + Rabs limit * B1) * (Rabs e ^ 2 * M ^ 2)) by (apply Rmult_le_compat; auto).
  assert (PMM : 0 <= B1 * M * Rabs e ^ 2) by (apply Rmult_le_pos; nra).
  unfold rest. cbn [re im]. fold a. rewrite E2. unfold bound. split.
  - replace ((1 + d e x) * cos a - (1 + e * beta x)) with ((1 + d e x) * (cos a - 1) + (d e x - e * beta x)) by ring. eapply Rle_trans; [apply Rabs_triang|]. rewrite Rabs_mult.
    assert (Rabs (1 + d e x) * Rabs (cos a - 1) <= Rabs (1 + d e x) * a ^ 2) by (apply Rmult_le_compat_l; lra). nra.
  - replace (- ((1 + d e x) * sin a) + a) with (- ((1 + d e x) * (sin a - a)) + - (d e x * a)) by ring. eapply Rle_trans; [apply Rabs_triang|]. rewrite !Rabs_Ropp, !Rabs_mult.
    assert (Rabs (1 + d e x) * Rabs (sin a - a) <= Rabs (1 + d e x) * a ^ 2) by (apply Rmult_le_compat_l; lra).
    assert (Rabs (d e x) * Rabs a <= (Rabs e * B1) * (Rabs e * M)) by (apply Rmult_le_compat; auto using Rabs_pos). assert (0 <= Rabs spread * Rabs e ^ 2) by (apply Rmult_le_pos; nra). nra.
Qed.
Lemma slope_ok : first_order limit quantity slope.
Proof.
  exists (2 * bound). intros e L. pose proof (size_pos n (within_nonempty n k K)) as SP.
  assert (Q : quantity e = cadd (cmul (creal e) slope) (cmul (creal (/ size n)) (csum (map (fun x => cplaced (fun v => cmul (expi (- angle x v)) (rest e x v))) (cells n))))).
  { rewrite <- linear_part. unfold quantity.
    transitivity (cmul (creal (/ size n)) (cadd (csum (map (fun x => cplaced (fun v => cmul (expi (- angle x v)) (Cx (1 + e * beta x) (- (e * moved_by x v))))) (cells n))) (csum (map (fun x => cplaced (fun v => cmul (expi (- angle x v)) (rest e x v))) (cells n))))); [|ring].
    f_equal. rewrite <- csum_add. apply csum_ext. intros x _. rewrite <- cplaced_add, <- cplaced_mul. apply cplaced_ext. intros v _. unfold rest. apply cplx_eq; cbn; rewrite ?cos_neg, ?sin_neg; ring. }
  assert (TB : forall x, In x (cells n) -> Rabs (re (cplaced (fun v => cmul (expi (- angle x v)) (rest e x v)))) <= 2 * bound * e ^ 2 /\ Rabs (im (cplaced (fun v => cmul (expi (- angle x v)) (rest e x v)))) <= 2 * bound * e ^ 2).
  { intros x X. apply cells_In in X. apply cplaced_bound. intros v V0. destruct (rest_bound e x v L X V0) as [R1 R2]. pose proof (COS_bound (- angle x v)) as C. pose proof (SIN_bound (- angle x v)) as S. cbn [cmul expi re im].
    set (p := re (rest e x v)) in *. set (q := im (rest e x v)) in *. set (c := cos (- angle x v)) in *. set (s := sin (- angle x v)) in *. set (b := bound * e ^ 2) in *.
    assert (AC : Rabs c <= 1) by (apply Rabs_le; lra). assert (AS : Rabs s <= 1) by (apply Rabs_le; lra). pose proof (Rabs_pos p). pose proof (Rabs_pos q). pose proof (Rabs_pos c). pose proof (Rabs_pos s).
    assert (PR : forall y z, Rabs y <= 1 -> Rabs z <= b -> Rabs (y * z) <= b). { intros y z Y Z0. rewrite Rabs_mult. pose proof (Rabs_pos y). pose proof (Rabs_pos z). nra. }
    replace (2 * bound * e ^ 2) with (b + b) by (unfold b; ring). split.
    - unfold Rminus. eapply Rle_trans; [apply Rabs_triang|]. rewrite Rabs_Ropp. apply Rplus_le_compat; apply PR; auto.
    - eapply Rle_trans; [apply Rabs_triang|]. apply Rplus_le_compat; apply PR; auto. }
  rewrite Q. set (r := csum _) in *. cbn [cadd cmul creal re im]. split.
  - replace (e * re slope - 0 * im slope + (/ size n * re r - 0 * im r) - e * re slope) with (/ size n * re r) by ring. rewrite Rabs_mult, (Rabs_right (/ size n)) by (apply Rle_ge, Rlt_le, Rinv_0_lt_compat; auto).
    assert (RB : Rabs (re r) <= size n * (2 * bound * e ^ 2)). { unfold r. rewrite csum_re, <- cells_length. apply sum_bound. intros x X. apply TB; auto. }
    apply (Rmult_le_compat_l (/ size n)) in RB; [|apply Rlt_le, Rinv_0_lt_compat; auto]. rewrite <- Rmult_assoc, Rinv_l, Rmult_1_l in RB by lra. auto.
  - replace (e * im slope + 0 * re slope + (/ size n * im r + 0 * re r) - e * im slope) with (/ size n * im r) by ring. rewrite Rabs_mult, (Rabs_right (/ size n)) by (apply Rle_ge, Rlt_le, Rinv_0_lt_compat; auto).
    assert (RB : Rabs (im r) <= size n * (2 * bound * e ^ 2)). { unfold r. rewrite csum_im, <- cells_length. apply sum_bound. intros x X. apply TB; auto. }
    apply (Rmult_le_compat_l (/ size n)) in RB; [|apply Rlt_le, Rinv_0_lt_compat; auto]. rewrite <- Rmult_assoc, Rinv_l, Rmult_1_l in RB by lra. auto.
Qed.
End Slope.
