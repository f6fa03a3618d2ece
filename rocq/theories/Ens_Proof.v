(** Lemmas on averages over seeds. *)
Require Import Reals Lra Lia ZArith List Permutation.
From Verif Require Import Base Vec3 Isometry_Model Rsd_Model Mock_Model Mock_Spec Fourier_Proof Mock_Thm Interlace_Thm Mesh_Thm Ens_Spec.
Import ListNotations.
Open Scope R_scope.

Section Average.
Context {S : Type} (E : (S -> R) -> R).
Hypothesis EX : expectation E.
Lemma E_add : forall f g, E (fun s => f s + g s) = E f + E g. Proof. apply EX. Qed.
Lemma E_scale : forall a f, E (fun s => a * f s) = a * E f. Proof. apply EX. Qed.
Lemma E_ext : forall f g, (forall s, f s = g s) -> E f = E g. Proof. apply EX. Qed.
Lemma E_const : forall a, E (fun _ => a) = a.
Proof. intros a. rewrite (E_ext _ (fun _ => a * 1)) by (intros; ring). rewrite E_scale. rewrite (proj1 EX). ring. Qed.
Lemma E_sum : forall {A} (f : A -> S -> R) l, E (fun s => Rsum (map (fun a => f a s) l)) = Rsum (map (fun a => E (f a)) l).
Proof.
  intros A f. induction l as [|a l IH]; unfold Rsum in *; cbn [map fold_right]; [apply E_const|]. rewrite E_add, IH. reflexivity.
Qed.
(** Complex averages. *)
Definition CE (f : S -> cplx) : cplx := Cx (E (fun s => re (f s))) (E (fun s => im (f s))).
Lemma CE_ext : forall f g, (forall s, f s = g s) -> CE f = CE g.
Proof. intros f g H. apply cplx_eq; apply E_ext; intros s; rewrite H; auto. Qed.
Lemma CE_mul : forall a f, CE (fun s => cmul a (f s)) = cmul a (CE f).
Proof.
  intros a f. apply cplx_eq; cbn [CE cmul re im].
  - transitivity (E (fun s => re a * re (f s) + (- im a) * im (f s))); [apply E_ext; intros; ring|]. rewrite E_add, !E_scale. ring.
  - transitivity (E (fun s => re a * im (f s) + im a * re (f s))); [apply E_ext; intros; ring|]. rewrite E_add, !E_scale. ring.
Qed.
Lemma CE_sum : forall {A} (f : A -> S -> cplx) l, CE (fun s => csum (map (fun a => f a s) l)) = csum (map (fun a => CE (f a)) l).
Proof.
  intros A f l. apply cplx_eq; cbn [CE re im].
  - rewrite csum_re. rewrite (E_ext _ (fun s => Rsum (map (fun a => re (f a s)) l))) by (intros; apply csum_re). apply E_sum.
  - rewrite csum_im. rewrite (E_ext _ (fun s => Rsum (map (fun a => im (f a s)) l))) by (intros; apply csum_im). apply E_sum.
Qed.
End Average.

Lemma CE_parts : forall {S} (E : (S -> R) -> R) f t, CE E f = creal t -> E (fun s => re (f s)) = t /\ E (fun s => im (f s)) = 0.
Proof. intros S E f t H. split; [exact (f_equal re H)|exact (f_equal im H)]. Qed.
Lemma Rsum_scale : forall {A} t (f : A -> R) l, Rsum (map (fun x => t * f x) l) = t * Rsum (map f l).
Proof. intros. unfold Rsum. induction l as [|a l IH]; cbn [map fold_right]; [ring|]. rewrite IH. ring. Qed.
Lemma Rsum_add : forall {A} (f g : A -> R) l, Rsum (map (fun x => f x + g x) l) = Rsum (map f l) + Rsum (map g l).
Proof. intros. unfold Rsum. induction l as [|a l IH]; cbn [map fold_right]; [ring|]. rewrite IH. ring. Qed.
Lemma conj_csum : forall {A} (f : A -> cplx) l, conj (csum (map f l)) = csum (map (fun a => conj (f a)) l).
Proof. intros. apply cplx_eq; cbn [conj re im]; rewrite ?csum_re, ?csum_im; auto. cbn [conj im]. unfold Rsum. induction l as [|a l IH]; cbn [map fold_right]; [ring|]. rewrite <- IH. ring. Qed.

Lemma cross_conj : forall a b, cross a b = cmul a (conj b).
Proof. intros. apply cplx_eq; cbn; ring. Qed.
Lemma same_refl : forall a, same a a = 1. Proof. intros. unfold same. destruct (idx_dec a a); congruence. Qed.
Lemma same_diff : forall a b, a <> b -> same a b = 0. Proof. intros. unfold same. destruct (idx_dec a b); congruence. Qed.
Lemma modulus2_cross : forall z, modulus2 z = re (cross z z). Proof. intros. unfold modulus2, cross. cbn. ring. Qed.
Lemma asked_mode : forall power los w, mode_power power los w = asked power los w.
Proof.
  intros power los w. unfold mode_power, asked. destruct (Req_EM_T (vdot w w) 0) as [Z|Z].
  - rewrite Z, sqrt_0. destruct (Req_EM_T 0 0); [auto|lra].
  - destruct (Req_EM_T (sqrt (vdot w w)) 0) as [Q|Q]; [|destruct los; auto].
    exfalso. apply sqrt_eq_0 in Q; auto. unfold vdot. nra.
Qed.

(** ** Modes *)
Lemma modes : forall {S} (E : (S -> R) -> R) freq box n power los (noise : S -> idx -> cplx) inverted dk, expectation E -> white E n noise ->
  (forall s, set_complex_delta_field freq box n power los (noise s) inverted = Ok (dk s)) ->
  forall k k', within n k -> within n k' -> CE E (fun s => cross (dk s k) (dk s k')) = creal (same k k' * (asked power los (wave freq box n k) / volume box)).
Proof.
  intros S E freq box n power los noise inverted dk EX (_ & _ & W2) H k k' K K'.
  set (a := fun k => sqrt (mode_power power los (wave freq box n k) / (vx box * vy box * vz box))).
  assert (D : forall s k, within n k -> dk s k = cscale (a k) (if inverted then cscale (-1) (noise s k) else noise s k)) by (intros s j J; apply (delta_inv _ _ _ _ _ _ _ _ (H s) j J)).
  rewrite (CE_ext E EX _ (fun s => cmul (creal (a k * a k')) (cross (noise s k) (noise s k')))).
  2:{ intros s. rewrite (D s k K), (D s k' K'). destruct inverted; apply cplx_eq; cbn; ring. }
  rewrite CE_mul by auto. destruct (W2 k k' K K') as [W W']. apply cplx_eq; cbn [CE cmul creal re im]; rewrite W, W'; [|ring].
  destruct (idx_dec k k') as [Q|Q]; [subst k'|rewrite !(same_diff _ _ Q); ring]. rewrite same_refl. rewrite <- asked_mode.
  assert (P : 0 <= mode_power power los (wave freq box n k) / (vx box * vy box * vz box)).
  { destruct (Rle_dec 0 (mode_power power los (wave freq box n k) / (vx box * vy box * vz box))) as [L|L]; auto. exfalso.
    assert (N : forall s : S, False) by (intros s; apply L, (delta_inv _ _ _ _ _ _ _ _ (H s) k K)).
    pose proof (E_ext E EX (fun _ => 1) (fun _ => 0) (fun s => False_ind _ (N s))) as Q. rewrite !(E_const E EX) in Q. lra. }
  unfold a, volume. rewrite sqrt_def by auto. ring.
Qed.
Lemma modes_mean : forall {S} (E : (S -> R) -> R) freq box n power los (noise : S -> idx -> cplx) inverted dk, expectation E -> white E n noise ->
  (forall s, set_complex_delta_field freq box n power los (noise s) inverted = Ok (dk s)) ->
  forall k, within n k -> CE E (fun s => dk s k) = C0.
Proof.
  intros S E freq box n power los noise inverted dk EX (_ & W1 & _) H k K. set (a := sqrt (mode_power power los (wave freq box n k) / (vx box * vy box * vz box))).
  rewrite (CE_ext E EX _ (fun s => cmul (creal (if inverted then - a else a)) (noise s k))).
  2:{ intros s. rewrite (proj2 (delta_inv _ _ _ _ _ _ _ _ (H s) k K)). fold a. destruct inverted; apply cplx_eq; cbn; ring. }
  rewrite CE_mul by auto. destruct (W1 k K) as [A B]. apply cplx_eq; cbn [CE cmul creal re im C0]; rewrite A, B; ring.
Qed.

(** ** Transform of the transform of any modes *)
Definition symmetrised (n : idx) (c : idx -> cplx) (k : idx) : cplx := cmul (creal (1 / 2)) (cadd (c k) (conj (c (opposite n k)))).
Lemma opposite_twice : forall n k, within n k -> opposite n (opposite n k) = k.
Proof.
  intros n [a b c] (A & B & C). cbn [ix iy iz] in *. destruct (opp_index _ _ A) as (_ & _ & A2). destruct (opp_index _ _ B) as (_ & _ & B2). destruct (opp_index _ _ C) as (_ & _ & D2).
  unfold opposite. cbn [ix iy iz]. rewrite A2, B2, D2. auto.
Qed.
Lemma within_nonempty : forall n k, within n k -> nonempty n.
Proof. intros n k (A & B & C). repeat split; lia. Qed.
Lemma symmetrised_hermitian : forall n c, hermitian n (symmetrised n c).
Proof. intros n c k K. unfold symmetrised. rewrite (opposite_twice n k K). apply cplx_eq; cbn; ring. Qed.
Lemma c2r_symmetrised : forall n c x, c2r n (symmetrised n c) x = c2r n c x.
Proof.
  intros n c x. rewrite !c2r_csum. set (t := fun k => cmul (c k) (expi (phase n k x))).
  assert (Q : csum (map (fun k => cmul (symmetrised n c k) (expi (phase n k x))) (cells n)) =
              cmul (creal (1 / 2)) (cadd (csum (map t (cells n))) (csum (map (fun k => conj (t k)) (map (opposite n) (cells n)))))).
  { rewrite map_map, <- csum_add, <- csum_mul. apply csum_ext. intros k K. apply cells_In in K. unfold t, symmetrised. rewrite conj_mul, <- (expi_conj (phase n (opposite n k) x)).
    replace (expi (- phase n (opposite n k) x)) with (expi (phase n k x)); [ring|]. rewrite expi_conj, phase_opp, expi_conj by auto. apply cplx_eq; cbn; ring. }
  rewrite Q, (csum_perm _ _ (Permutation_map (fun k => conj (t k)) (opposite_perm n))). cbn [re cmul creal cadd]. rewrite (csum_re (fun k => conj (t k))), (csum_re t). cbn [conj re im creal]. lra.
Qed.
Lemma r2c_c2r_any : forall n c k, nonempty n -> within n k -> r2c n (c2r n c) k = symmetrised n c k.
Proof.
  intros n c k N K. rewrite (r2c_ext n _ (c2r n (symmetrised n c))); [apply r2c_c2r; auto; apply symmetrised_hermitian|]. intros x _. symmetry. apply c2r_symmetrised.
Qed.

(** ** Opposite modes *)
Lemma freq_opposite : forall freq n i, proper_freq freq -> (i < n)%nat -> (2 * Z.abs (freq n i) < Z.of_nat n)%Z -> freq n ((n - i) mod n) = (- freq n i)%Z.
Proof.
  intros freq n i F H L. destruct (opp_index n i H) as (O1 & [q O2] & _). destruct (F n i H) as [ [a A] A2]. destruct (F n _ O1) as [ [b B] B2].
  assert (Q : (freq n i + freq n ((n - i) mod n)%nat = (a + q + b) * Z.of_nat n)%Z) by lia. set (s := (a + q + b)%Z) in *. set (x := freq n i) in *. set (y := freq n _) in *. clearbody x y s.
  assert (Z.abs (s * Z.of_nat n) < Z.of_nat n)%Z by lia. rewrite Z.abs_mul, (Z.abs_eq (Z.of_nat n)) in * by lia. assert (Z.abs s < 1)%Z by nia. assert (s = 0)%Z by lia. subst s. lia.
Qed.
Lemma wave_opposite : forall freq box n k, proper_freq freq -> within n k -> resolved_mode freq n k -> wave freq box n (opposite n k) = vscale (-1) (wave freq box n k).
Proof.
  intros freq box n k F (A & B & C) (R1 & R2 & R3). unfold wave, opposite, vscale. cbn [ix iy iz vx vy vz]. rewrite !(freq_opposite freq) by auto. rewrite !opp_IZR. f_equal; ring.
Qed.
Lemma opposite_inj : forall n k k', within n k -> within n k' -> opposite n k = opposite n k' -> k = k'.
Proof. intros n k k' K K' H. rewrite <- (opposite_twice n k K), <- (opposite_twice n k' K'). congruence. Qed.

Lemma even_isotropic : forall freq box n power, proper_freq freq -> even_power freq box n power None.
Proof. intros freq box n power PF k K. unfold asked. rewrite (wave_opp freq box n k PF K). auto. Qed.
Lemma even_hermitian : forall freq box n power los noise inverted dk, even_power freq box n power los -> hermitian n noise ->
  set_complex_delta_field freq box n power los noise inverted = Ok dk -> hermitian n dk.
Proof.
  intros freq box n power los noise inverted dk EV HN H k K. pose proof (within_opposite n k (within_nonempty n k K)) as KO.
  rewrite (proj2 (delta_inv _ _ _ _ _ _ _ _ H _ KO)), (proj2 (delta_inv _ _ _ _ _ _ _ _ H _ K)). rewrite !asked_mode, (EV k K), (HN k K). destruct inverted; apply cplx_eq; cbn; ring.
Qed.
