(** Proofs: IEEE double precision, in terms of rounded real numbers. *)
Require Import Reals Lra Lia ZArith List Bool SpecFloat.
From Flocq Require Import Core BinarySingleNaN Relative.
From Verif Require Import Base Vec3 Box_Model Wobble_Model Wobble_Spec Wobble_Proof Wobble_Proof2 Wobble_Proof3 Round_Spec.
Import ListNotations.
Open Scope R_scope.

Local Instance Hprec : FLX.Prec_gt_0 53 := eq_refl _.
Local Instance Hmax : Prec_lt_emax 53 1024 := eq_refl _.
Local Notation float := (binary_float 53 1024).

(** The standard library's operations are Flocq's. *)
Lemma rne : forall s m l, SpecFloat.round_nearest_even m l = choice_mode mode_NE s m l.
Proof. intros s m [|c]; [reflexivity|]. destruct c; try reflexivity. cbn. unfold Round.cond_incr. now destruct (Z.even m). Qed.
Lemma aux_eq : forall sx mx ex lx, SpecFloat.binary_round_aux 53 1024 sx mx ex lx = BinarySingleNaN.binary_round_aux 53 1024 mode_NE sx mx ex lx.
Proof.
  intros. unfold SpecFloat.binary_round_aux, BinarySingleNaN.binary_round_aux. set (q := shr_fexp _ _ _). destruct q as [a b]. cbn.
  now rewrite (rne sx).
Qed.
Lemma round_eq : forall s m e, SpecFloat.binary_round 53 1024 s m e = BinarySingleNaN.binary_round 53 1024 mode_NE s m e.
Proof.
  intros. unfold SpecFloat.binary_round, BinarySingleNaN.binary_round, shl_align_fexp. set (q := shl_align _ _ _). destruct q. apply aux_eq.
Qed.
Lemma normalize_eq : forall m e z, SpecFloat.binary_normalize 53 1024 m e z = B2SF (BinarySingleNaN.binary_normalize 53 1024 _ _ mode_NE m e z).
Proof. intros [|p|p] e z; [reflexivity| |]; cbn -[SpecFloat.binary_round BinarySingleNaN.binary_round]; rewrite B2SF_SF2B; apply round_eq. Qed.
Lemma add_eq : forall x y : float, SFadd 53 1024 (B2SF x) (B2SF y) = B2SF (Bplus mode_NE x y).
Proof.
  intros [sx|sx| |sx mx ex Hx] [sy|sy| |sy my ey Hy]; try reflexivity; try (cbn; now destruct (Bool.eqb sx sy)).
  apply normalize_eq.
Qed.
Lemma mul_eq : forall x y : float, SFmul 53 1024 (B2SF x) (B2SF y) = B2SF (Bmult mode_NE x y).
Proof.
  intros [sx|sx| |sx mx ex Hx] [sy|sy| |sy my ey Hy]; try reflexivity. simpl. rewrite B2SF_SF2B. apply aux_eq.
Qed.
Lemma div_eq : forall x y : float, SFdiv 53 1024 (B2SF x) (B2SF y) = B2SF (Bdiv mode_NE x y).
Proof.
  intros [sx|sx| |sx mx ex Hx] [sy|sy| |sy my ey Hy]; try reflexivity. simpl. rewrite B2SF_SF2B.
  set (q := SFdiv_core_binary _ _ _ _ _ _). destruct q as [[mz ez] lz]. apply aux_eq.
Qed.

Lemma pow2 : forall k, powerRZ 2 k = bpow radix2 k. Proof. intros. rewrite bpow_powerRZ. reflexivity. Qed.
Lemma holds_float : forall k f r, holds k f r <-> exists b : float, B2SF b = f /\ is_finite b = true /\ B2R b = r /\ Rabs r <= bpow radix2 k.
Proof.
  intros. unfold holds. rewrite pow2. split.
  - intros [H [E L]]. exists (SF2B f H). rewrite B2SF_SF2B, B2R_SF2B, is_finite_SF2B. split; [reflexivity|]. destruct f as [s|s| |s m e]; try discriminate E; cbn in *;
    (split; [reflexivity|split; [|exact L]]); injection E as <-; [reflexivity|]. unfold F2R; cbn. rewrite <- pow2. destruct s; cbn; ring_simplify; [|reflexivity].
    change (IZR (Z.neg m)) with (- IZR (Z.pos m)). ring.
  - intros [b [<- [Fb [Rb L]]]]. split; [apply valid_binary_B2SF|split; [|exact L]]. subst r. destruct b as [s|s| |s m e]; try discriminate Fb; cbn; [reflexivity|].
    f_equal. unfold F2R; cbn. rewrite <- pow2. destruct s; cbn; [|ring]. change (IZR (Z.neg m)) with (- IZR (Z.pos m)). ring.
Qed.

Lemma double_bound : forall x k, (-1074 <= k)%Z -> Rabs x <= bpow radix2 k -> Rabs (double x) <= bpow radix2 k.
Proof.
  intros x k K H. unfold double. apply abs_round_le_generic; [typeclasses eauto|typeclasses eauto| |exact H].
  apply generic_format_bpow. unfold FLT_exp. lia.
Qed.
Lemma small_ok : forall x k, (-1074 <= k < 1024)%Z -> Rabs x <= bpow radix2 k -> Rlt_bool (Rabs (double x)) (bpow radix2 1024) = true.
Proof.
  intros x k K H. apply Rlt_bool_true. eapply Rle_lt_trans; [apply double_bound; [|exact H]; lia|]. apply bpow_lt. lia.
Qed.

Lemma holds_mono : forall k l f r, holds k f r -> (k <= l)%Z -> holds l f r.
Proof. intros k l f r [H [E L]] K. split; [exact H|split; [exact E|]]. eapply Rle_trans; [exact L|]. rewrite !pow2. apply bpow_le. exact K. Qed.
Lemma holds_add : forall k f r g s, (-1074 <= k < 1023)%Z -> holds k f r -> holds k g s -> holds (k + 1) (aadd binary64 f g) (aadd (rounded double) r s).
Proof.
  intros k f r g s K H1 H2. apply holds_float in H1. destruct H1 as [a [Ea [Fa [Ra La]]]]. apply holds_float in H2. destruct H2 as [b [Eb [Fb [Rb Lb]]]].
  assert (L : Rabs (r + s) <= bpow radix2 (k + 1)).
  { eapply Rle_trans; [apply Rabs_triang|]. rewrite bpow_plus. change (bpow radix2 1) with 2. lra. }
  apply holds_float. exists (Bplus mode_NE a b). pose proof (Bplus_correct 53 1024 _ _ mode_NE a b Fa Fb) as P.
  rewrite Ra, Rb in P. change (round radix2 (SpecFloat.fexp 53 1024) (round_mode mode_NE) (r + s)) with (double (r + s)) in P.
  rewrite (small_ok _ (k + 1)%Z) in P by (try lia; exact L). destruct P as [P1 [P2 _]].
  split; [cbn; rewrite <- add_eq, Ea, Eb; reflexivity|]. split; [exact P2|]. split; [exact P1|]. apply double_bound; [lia|exact L].
Qed.
Lemma holds_mul : forall k l f r g s, (-1074 <= k + l < 1024)%Z -> holds k f r -> holds l g s -> holds (k + l) (amul binary64 f g) (amul (rounded double) r s).
Proof.
  intros k l f r g s K H1 H2. apply holds_float in H1. destruct H1 as [a [Ea [Fa [Ra La]]]]. apply holds_float in H2. destruct H2 as [b [Eb [Fb [Rb Lb]]]].
  assert (L : Rabs (r * s) <= bpow radix2 (k + l)).
  { rewrite Rabs_mult, bpow_plus. apply Rmult_le_compat; try apply Rabs_pos; assumption. }
  apply holds_float. exists (Bmult mode_NE a b). pose proof (Bmult_correct 53 1024 _ _ mode_NE a b) as P.
  rewrite Ra, Rb in P. change (round radix2 (SpecFloat.fexp 53 1024) (round_mode mode_NE) (r * s)) with (double (r * s)) in P.
  rewrite (small_ok _ (k + l)%Z) in P by (try lia; exact L). destruct P as [P1 [P2 _]]. rewrite Fa, Fb in P2.
  split; [cbn; rewrite <- mul_eq, Ea, Eb; reflexivity|]. split; [exact P2|]. split; [exact P1|]. apply double_bound; [lia|exact L].
Qed.
Lemma holds_div : forall k l m f r g s, (-1074 <= m < 1024)%Z -> holds k f r -> holds l g s -> s <> 0 -> Rabs (r / s) <= powerRZ 2 m ->
  holds m (adiv binary64 f g) (adiv (rounded double) r s).
Proof.
  intros k l m f r g s K H1 H2 S L. apply holds_float in H1. destruct H1 as [a [Ea [Fa [Ra La]]]]. apply holds_float in H2. destruct H2 as [b [Eb [Fb [Rb Lb]]]].
  rewrite pow2 in L.
  apply holds_float. exists (Bdiv mode_NE a b). pose proof (Bdiv_correct 53 1024 _ _ mode_NE a b) as P.
  rewrite Ra, Rb in P. change (round radix2 (SpecFloat.fexp 53 1024) (round_mode mode_NE) (r / s)) with (double (r / s)) in P.
  rewrite (small_ok _ m) in P by (try lia; exact L). destruct (P S) as [P1 [P2 _]]. rewrite Fa in P2.
  split; [cbn; rewrite <- div_eq, Ea, Eb; reflexivity|]. split; [exact P2|]. split; [exact P1|]. apply double_bound; [lia|exact L].
Qed.
Lemma double_int : forall z, (Z.abs z <= 2 ^ 53)%Z -> double (IZR z) = IZR z.
Proof.
  intros z H. apply round_generic; [typeclasses eauto|]. destruct (Z.eq_dec (Z.abs z) (2 ^ 53)) as [E|E].
  - assert (IZR z = bpow radix2 53 \/ IZR z = - bpow radix2 53) as [-> | ->].
    { change (bpow radix2 53) with (IZR (2 ^ 53)). destruct (Z.abs_eq_or_opp z) as [Q|Q]; rewrite Q in E; [left; now rewrite E|right]. rewrite <- E, opp_IZR. ring. }
    + apply generic_format_bpow. unfold FLT_exp. lia.
    + apply generic_format_opp, generic_format_bpow. unfold FLT_exp. lia.
  - apply generic_format_FLT. exists (Float radix2 z 0); cbn; [unfold F2R; cbn; ring| |lia]. lia.
Qed.
Lemma holds_int : forall z, (Z.abs z <= 2 ^ 53)%Z -> holds 53 (of_Z binary64 z) (of_Z (rounded double) z).
Proof.
  intros z H. apply holds_float. exists (BinarySingleNaN.binary_normalize 53 1024 _ _ mode_NE z 0 false).
  pose proof (BinarySingleNaN.binary_normalize_correct 53 1024 _ _ mode_NE z 0 false) as P. cbv zeta in P.
  replace (F2R (Float radix2 z 0)) with (IZR z) in P by (unfold F2R; cbn; ring).
  change (round radix2 (SpecFloat.fexp 53 1024) (round_mode mode_NE) (IZR z)) with (double (IZR z)) in P.
  assert (L : Rabs (IZR z) <= bpow radix2 53) by (rewrite <- abs_IZR; change (bpow radix2 53) with (IZR (2 ^ 53)); apply IZR_le; exact H).
  rewrite (small_ok _ 53) in P by (try lia; exact L). destruct P as [P1 [P2 _]]. rewrite double_int in P1 by exact H.
  split; [cbn; symmetry; apply normalize_eq|]. split; [exact P2|]. split; [exact P1|exact L].
Qed.
Lemma holds_leb : forall k l f r g s, holds k f r -> holds l g s -> aleb binary64 f g = aleb (rounded double) r s.
Proof.
  intros k l f r g s H1 H2. apply holds_float in H1. destruct H1 as [a [<- [Fa [<- La]]]]. apply holds_float in H2. destruct H2 as [b [<- [Fb [<- Lb]]]].
  cbn. change (SFleb (B2SF a) (B2SF b)) with (Bleb a b). rewrite Bleb_correct by assumption.
  unfold Rleb. case Rle_bool_spec; intros; destruct (Rle_dec (B2R a) (B2R b)); try reflexivity; lra.
Qed.

(** The transform. Sizes: 2^a for what is stored, 2^b for positions. *)
Lemma dot_holds : forall k l f r g s, (0 <= k)%Z -> (53 <= l)%Z -> (k + l + 3 < 1024)%Z -> vec_holds k f r -> vec_holds l g s -> holds (k + l + 3) (gdot binary64 f g) (gdot (rounded double) r s).
Proof.
  intros k l f r g s K L B [X1 [Y1 Z1]] [X2 [Y2 Z2]]. unfold gdot.
  assert (P : forall a b c d, holds k a b -> holds l c d -> holds (k + l) (amul binary64 a c) (amul (rounded double) b d)) by (intros; apply holds_mul; [lia|assumption|assumption]).
  pose proof (holds_mono _ (k + l) _ _ (holds_int 0 ltac:(lia)) ltac:(lia)) as O.
  pose proof (holds_add (k + l) _ _ _ _ ltac:(lia) O (P _ _ _ _ X1 X2)) as S1.
  pose proof (holds_add (k + l + 1) _ _ _ _ ltac:(lia) S1 (holds_mono _ (k + l + 1) _ _ (P _ _ _ _ Y1 Y2) ltac:(lia))) as S2.
  pose proof (holds_add (k + l + 1 + 1) _ _ _ _ ltac:(lia) S2 (holds_mono _ (k + l + 1 + 1) _ _ (P _ _ _ _ Z1 Z2) ltac:(lia))) as S3.
  replace (k + l + 3)%Z with (k + l + 1 + 1 + 1)%Z by lia. exact S3.
Qed.
Lemma dot_comm_holds : forall k l f r g s, (0 <= k)%Z -> (53 <= l)%Z -> (k + l + 3 < 1024)%Z -> vec_holds k f r -> vec_holds l g s -> holds (k + l + 3) (gdot binary64 g f) (gdot (rounded double) s r).
Proof.
  intros k l f r g s K L B [X1 [Y1 Z1]] [X2 [Y2 Z2]]. unfold gdot.
  assert (P : forall a b c d, holds k a b -> holds l c d -> holds (k + l) (amul binary64 c a) (amul (rounded double) d b)) by (intros; rewrite Z.add_comm; apply holds_mul; [lia|assumption|assumption]).
  pose proof (holds_mono _ (k + l) _ _ (holds_int 0 ltac:(lia)) ltac:(lia)) as O.
  pose proof (holds_add (k + l) _ _ _ _ ltac:(lia) O (P _ _ _ _ X1 X2)) as S1.
  pose proof (holds_add (k + l + 1) _ _ _ _ ltac:(lia) S1 (holds_mono _ (k + l + 1) _ _ (P _ _ _ _ Y1 Y2) ltac:(lia))) as S2.
  pose proof (holds_add (k + l + 1 + 1) _ _ _ _ ltac:(lia) S2 (holds_mono _ (k + l + 1 + 1) _ _ (P _ _ _ _ Z1 Z2) ltac:(lia))) as S3.
  replace (k + l + 3)%Z with (k + l + 1 + 1 + 1)%Z by lia. exact S3.
Qed.
Lemma isin_holds : forall k l f r g s, (0 <= k)%Z -> (53 <= l)%Z -> (k + l + 4 < 1024)%Z -> cell_holds k f r -> vec_holds l g s -> gisin binary64 f g = gisin (rounded double) r s.
Proof.
  intros k l f r g s K L B [_ [H _]] G. unfold gisin.
  assert (A : forall fs rs, Forall2 (plane_holds k) fs rs ->
    forallb (fun f => aleb binary64 (of_Z binary64 0) (gtest binary64 f g)) fs = forallb (fun f => aleb (rounded double) (of_Z (rounded double) 0) (gtest (rounded double) f s)) rs).
  { clear H. intros fs rs H. induction H as [|p q fs rs [N D] H IH]; [reflexivity|]. cbn [forallb]. rewrite IH. f_equal.
    pose proof (dot_holds _ _ _ _ _ _ K L ltac:(lia) N G) as E.
    pose proof (holds_add (k + l + 3) _ _ _ _ ltac:(lia) E (holds_mono _ (k + l + 3) _ _ D ltac:(lia))) as T.
    exact (holds_leb _ _ _ _ _ _ (holds_int 0 ltac:(lia)) T). }
  exact (A _ _ H).
Qed.
Lemma move_holds : forall l g s i, (53 <= l < 1023)%Z -> (let '(a, b, c) := i in (Z.abs a <= 2 ^ 53 /\ Z.abs b <= 2 ^ 53 /\ Z.abs c <= 2 ^ 53)%Z) -> vec_holds l g s ->
  vec_holds (l + 1) (gadd binary64 g (gvec_of binary64 i)) (gadd (rounded double) s (gvec_of (rounded double) i)).
Proof.
  intros l g s [[a b] c] L [A [B C]] [X [Y Z]].
  split; [|split]; cbn [gx gy gz gadd gvec_of]; apply holds_add; try assumption; try lia; (eapply holds_mono; [apply holds_int; assumption|lia]).
Qed.
Lemma vec_mono : forall k l f r, vec_holds k f r -> (k <= l)%Z -> vec_holds l f r.
Proof. intros k l f r [X [Y Z]] K. split; [|split]; eapply holds_mono; eassumption. Qed.
Definition gfold (A : arith) (cells : list (gcell (num A))) (mp : bool * gvec (num A)) : bool * gvec (num A) :=
  fold_left (fun '(m, p) c => if gisin A c p then (true, gadd A p (gvec_of A (gc_ipos c))) else (m, p)) cells mp.
Lemma gfold_cons : forall A c l m p, gfold A (c :: l) (m, p) = gfold A l (if gisin A c p then (true, gadd A p (gvec_of A (gc_ipos c))) else (m, p)).
Proof. reflexivity. Qed.
Lemma loop_holds : forall k cf cr, Forall2 (cell_holds k) cf cr -> (0 <= k)%Z -> forall l g s m, (53 <= l)%Z -> (k + l + Z.of_nat (length cr) + 4 < 1024)%Z -> vec_holds l g s ->
  exists m' g' s', gfold binary64 cf (m, g) = (m', g') /\ gfold (rounded double) cr (m, s) = (m', s') /\ vec_holds (l + Z.of_nat (length cr)) g' s'.
Proof.
  intros k cf cr H K. induction H as [|a b cf cr C H IH]; intros l g s m L B G.
  - exists m, g, s. cbn. split; [reflexivity|split; [reflexivity|]]. now rewrite Z.add_0_r.
  - cbn [length] in *. rewrite Nat2Z.inj_succ in *.
    pose proof (isin_holds k l a b g s K L ltac:(lia) C G) as I. destruct (gisin (rounded double) b s) eqn:J.
    + destruct C as [Ci [_ Cb]]. destruct (IH (l + 1)%Z _ _ true ltac:(lia) ltac:(lia) (move_holds l g s (gc_ipos b) ltac:(lia) Cb G)) as [m' [g' [s' [E1 [E2 V]]]]].
      exists m', g', s'. split; [etransitivity; [apply (gfold_cons binary64)|]; rewrite I; etransitivity; [|exact E1]; f_equal; f_equal; f_equal; f_equal; exact Ci|].
      split; [etransitivity; [apply (gfold_cons (rounded double))|]; rewrite J; exact E2|]. eapply vec_mono; [exact V|lia].
    + destruct (IH l _ _ m ltac:(lia) ltac:(lia) G) as [m' [g' [s' [E1 [E2 V]]]]]. exists m', g', s'.
      split; [etransitivity; [apply (gfold_cons binary64)|]; rewrite I; exact E1|].
      split; [etransitivity; [apply (gfold_cons (rounded double))|]; rewrite J; exact E2|]. eapply vec_mono; [exact V|lia].
Qed.

(** No overflow: sizes stored below 2^k, fractions below 2^l. *)
Lemma transform_holds : forall k l cf cr f r, (0 <= k)%Z -> (53 <= l)%Z -> (2 * k + l + Z.of_nat (length (gu_cells cr)) + 4 < 1024)%Z -> cuboid_holds k cf cr -> vec_holds k f r ->
  gx (gu_boxsize cr) <> 0 -> gy (gu_boxsize cr) <> 0 -> gz (gu_boxsize cr) <> 0 -> within (powerRZ 2 l) (fraction cr r) ->
  match gtransform1 (rounded double) cr r with
  | Ok y => exists z, gtransform1 binary64 cf f = Ok z /\ vec_holds 1023 z y
  | Err e => gtransform1 binary64 cf f = Err e
  end.
Proof.
  intros k l cf cr f r K L B [[X1 [Y1 Z1]] [N1 [N2 [N3 [[S1 [S2 S3]] C]]]]] [X [Y Z]] Dx Dy Dz [Wx [Wy Wz]].
  assert (G : vec_holds l (gdiv binary64 f (gu_boxsize cf)) (gdiv (rounded double) r (gu_boxsize cr))).
  { split; [|split]; cbn [gx gy gz gdiv]; (eapply holds_div; [lia|eassumption|eassumption|assumption|assumption]). }
  destruct (loop_holds k _ _ C K l _ _ false L ltac:(lia) G) as [m [g [s [E1 [E2 V]]]]].
  assert (R1 : gtransform1 binary64 cf f = if m then Ok (gmul binary64 (gproject binary64 cf g) (gu_resize cf)) else Err CuboidError).
  { unfold gtransform1. change (gloop binary64 (gu_cells cf) (gdiv binary64 f (gu_boxsize cf))) with (gfold binary64 (gu_cells cf) (false, gdiv binary64 f (gu_boxsize cf))).
    refine (eq_ind _ (fun z => match z with (true, p) => _ | (false, _) => _ end = _) _ _ (eq_sym E1)). now destruct m. }
  assert (R2 : gtransform1 (rounded double) cr r = if m then Ok (gmul (rounded double) (gproject (rounded double) cr s) (gu_resize cr)) else Err CuboidError).
  { unfold gtransform1. change (gloop (rounded double) (gu_cells cr) (gdiv (rounded double) r (gu_boxsize cr))) with (gfold (rounded double) (gu_cells cr) (false, gdiv (rounded double) r (gu_boxsize cr))).
    refine (eq_ind _ (fun z => match z with (true, p) => _ | (false, _) => _ end = _) _ _ (eq_sym E2)). now destruct m. }
  rewrite R1, R2. destruct m; [|reflexivity].
  eexists. split; [reflexivity|]. set (j := Z.of_nat (length (gu_cells cr))) in *.
  assert (D : forall u v, vec_holds k u v -> holds (l + j + k + 3) (gdot binary64 g u) (gdot (rounded double) s v)).
  { intros u v U. pose proof (dot_comm_holds k (l + j) u v g s K ltac:(lia) ltac:(lia) U V) as Q. replace (l + j + k + 3)%Z with (k + (l + j) + 3)%Z by lia. exact Q. }
  split; [|split]; cbn [gx gy gz gmul gproject]; (eapply holds_mono; [apply holds_mul; [|apply D; eassumption|eassumption]; lia|lia]).
Qed.

Lemma double_rounds : rounds unit_roundoff (powerRZ 2 (-1075)) double.
Proof.
  intros x. destruct (relative_error_N_FLT'_ex radix2 (-1074) 53 eq_refl (fun z => negb (Z.even z)) x) as [e [h [E [H [_ Q]]]]]. unfold double.
  change ZnearestE with (Znearest (fun z => negb (Z.even z))). rewrite Q. replace (x * (1 + e) + h - x) with (e * x + h) by ring.
  eapply Rle_trans; [apply Rabs_triang|]. rewrite Rabs_mult. apply Rplus_le_compat.
  - apply Rmult_le_compat_r; [apply Rabs_pos|]. eapply Rle_trans; [exact E|].
    assert (U : u_ro radix2 53 = unit_roundoff).
    { unfold u_ro, unit_roundoff. rewrite pow_IZR. cbn. lra. }
    rewrite U. assert (0 < unit_roundoff) by (apply Rinv_0_lt_compat, pow_lt; lra).
    apply Rmult_le_reg_r with (1 + unit_roundoff); [lra|]. unfold Rdiv. rewrite Rmult_assoc, Rinv_l by lra. nra.
  - rewrite pow2. eapply Rle_trans; [exact H|]. change (-1075)%Z with (-1 + -1074)%Z. rewrite bpow_plus. change (bpow radix2 (-1)) with (/ 2). lra.
Qed.

Lemma double_fine : forall k, (k <= 500)%nat -> fine unit_roundoff (powerRZ 2 (-1075)) k.
Proof.
  intros k K. assert (I : INR k <= 500) by (change 500 with (IZR 500); rewrite INR_IZR_INZ; apply IZR_le; lia).
  assert (I0 := pos_INR k).
  assert (U : 0 <= unit_roundoff <= / 100000).
  { unfold unit_roundoff. split; [apply Rlt_le, Rinv_0_lt_compat, pow_lt; lra|]. apply Rinv_le_contravar; [lra|]. rewrite pow_IZR. apply IZR_le. vm_compute. discriminate. }
  assert (N : 0 <= powerRZ 2 (-1075) <= / 100000).
  { rewrite pow2. split; [apply bpow_ge_0|]. eapply Rle_trans; [apply bpow_le with (e2 := (-20)%Z); lia|]. cbn. lra. }
  split; [lra|split; [lra|]]. split; nra.
Qed.
Lemma double_far : forall cf c f x n d s b q t, cuboid_holds 200 cf c -> vec_holds 200 f x -> (length (gu_cells c) <= 500)%nat -> b <= powerRZ 2 53 ->
  gx (gu_boxsize c) <> 0 -> gy (gu_boxsize c) <> 0 -> gz (gu_boxsize c) <> 0 -> stored n d s c -> 0 <= d -> 1 <= b ->
  let m := margin unit_roundoff (powerRZ 2 (-1075)) (length (gu_cells c)) n d b in
  walk m b (gu_cells c) (fraction c x) q t ->
  if t then exists z y, gtransform1 binary64 cf f = Ok z /\ values z (vec_of_gvec y) /\ near (s * m + powerRZ 2 (-1075)) y (image c q)
  else gtransform1 binary64 cf f = Err CuboidError.
Proof.
  intros cf c f x n d s b q t Hc Hx Hl Hb Bx By Bz Hs Hd B1 m W.
  assert (Hf := double_fine _ Hl).
  pose proof (far_from_faces _ _ _ _ _ _ _ _ _ _ _ double_rounds Hf Hs Hd B1 W) as T.
  assert (Wp : within b (fraction c x)) by (destruct W; assumption).
  assert (T2 := transform_holds 200 53 cf c f x ltac:(lia) ltac:(lia) ltac:(lia) Hc Hx Bx By Bz
    ltac:(destruct Wp as [? [? ?]]; split; [|split]; eapply Rle_trans; [eassumption|exact Hb|eassumption|exact Hb|eassumption|exact Hb])).
  destruct t.
  - destruct T as [_ [y [Ey Ny]]]. rewrite Ey in T2. destruct T2 as [z [Ez [[_ [V1 _]] [[_ [V2 _]] [_ [V3 _]]]]]].
    exists z, y. split; [exact Ez|]. split; [split; [exact V1|split; [exact V2|exact V3]]|exact Ny].
  - destruct T as [_ E]. rewrite E in T2. exact T2.
Qed.

Lemma double_copy : forall cf c f x n d s r, cuboid_holds 200 cf c -> vec_holds 200 f x -> (length (gu_cells c) <= 500)%nat ->
  gx (gu_boxsize c) <> 0 -> gy (gu_boxsize c) <> 0 -> gz (gu_boxsize c) <> 0 -> stored n d s c -> 0 <= d -> 0 <= r ->
  (forall k, In k (gu_cells c) -> within r (moved (GV 0 0 0) (gc_ipos k))) -> within 1 (fraction c x) ->
  gtransform1 binary64 cf f = Err CuboidError \/
  exists z y i, gtransform1 binary64 cf f = Ok z /\ values z (vec_of_gvec y) /\
    near (s * margin unit_roundoff (powerRZ 2 (-1075)) (length (gu_cells c)) n d (1 + r * INR (length (gu_cells c))) + powerRZ 2 (-1075)) y (image c (moved (fraction c x) i)).
Proof.
  intros cf c f x n d s r Hc Hx Hl Bx By Bz Hs Hd Hr Hm W.
  assert (P : 1 <= powerRZ 2 53) by (rewrite pow2; change 1 with (bpow radix2 0); apply bpow_le; lia).
  assert (T2 := transform_holds 200 53 cf c f x ltac:(lia) ltac:(lia) ltac:(lia) Hc Hx Bx By Bz
    ltac:(destruct W as [? [? ?]]; split; [|split]; eapply Rle_trans; [eassumption|exact P|eassumption|exact P|eassumption|exact P])).
  destruct (transform_any _ _ _ c x n d s r double_rounds (double_fine _ Hl) Hs Hd Hr Hm W) as [E|[y [i [E N]]]]; rewrite E in T2.
  - left. exact T2.
  - right. destruct T2 as [z [Ez [[_ [V1 _]] [[_ [V2 _]] [_ [V3 _]]]]]]. exists z, y, i.
    split; [exact Ez|]. split; [split; [exact V1|split; [exact V2|exact V3]]|exact N].
Qed.
Lemma holds_dyadic : forall m e r, (Z.abs m < 2 ^ 53)%Z -> (0 <= e <= 1000)%Z -> r = IZR m / 2 ^ Z.to_nat e -> holds 53 (dyadic m e) r.
Proof.
  intros m e r M E ->. unfold dyadic. replace (IZR m / 2 ^ Z.to_nat e) with (F2R (Float radix2 m (- e))).
  2: { unfold F2R; cbn [Fnum Fexp]. rewrite bpow_opp. unfold Rdiv. f_equal. f_equal. rewrite <- pow2, <- (Z2Nat.id e) at 1 by lia. now rewrite <- pow_powerRZ. }
  apply holds_float. exists (BinarySingleNaN.binary_normalize 53 1024 _ _ mode_NE m (- e) false).
  pose proof (BinarySingleNaN.binary_normalize_correct 53 1024 _ _ mode_NE m (- e) false) as P. cbv zeta in P.
  change (round radix2 (SpecFloat.fexp 53 1024) (round_mode mode_NE) (F2R (Float radix2 m (- e)))) with (double (F2R (Float radix2 m (- e)))) in P.
  assert (L : Rabs (F2R (Float radix2 m (- e))) <= bpow radix2 53).
  { rewrite <- F2R_Zabs. unfold F2R; cbn [Fnum Fexp]. rewrite <- (Rmult_1_r (bpow radix2 53)). apply Rmult_le_compat; [apply IZR_le; lia|apply bpow_ge_0| |].
    - change (bpow radix2 53) with (IZR (2 ^ 53)). apply IZR_le. lia.
    - change 1 with (bpow radix2 0). apply bpow_le. lia. }
  rewrite (small_ok _ 53) in P by (try lia; exact L). destruct P as [P1 [P2 _]].
  assert (D : double (F2R (Float radix2 m (- e))) = F2R (Float radix2 m (- e))).
  { apply round_generic; [typeclasses eauto|]. apply generic_format_FLT. exists (Float radix2 m (- e)); cbn [Fnum Fexp]; [reflexivity|exact M|lia]. }
  rewrite D in P1. split; [symmetry; apply normalize_eq|]. split; [exact P2|]. split; [exact P1|exact L].
Qed.
Lemma rejected : forall A u1 u2 u3 size, (idet3 u1 u2 u3 <> 1)%Z -> gcuboid_new A u1 u2 u3 size = Err ValueError.
Proof. intros A u1 u2 u3 size H. unfold gcuboid_new. apply Z.eqb_neq in H. rewrite H. reflexivity. Qed.

Definition case_double : gcuboid spec_float :=
  let o := dyadic 0 0 in let l := dyadic 1 0 in let h := dyadic 3 2 in let mh := dyadic (-3) 2 in
  GCuboid (GV l l l) (GV h h o) (GV mh h o) (GV o o l) (GV l l l)
    [GCell (-1, 0, 0)%Z [GPlane (GV h mh o) o; GPlane (GV h h o) mh]; GCell (0, 0, 0)%Z [GPlane (GV mh h o) o]].
Definition case_real : gcuboid R :=
  GCuboid (GV 1 1 1) (GV (3 / 4) (3 / 4) 0) (GV (- (3 / 4)) (3 / 4) 0) (GV 0 0 1) (GV 1 1 1)
    [GCell (-1, 0, 0)%Z [GPlane (GV (3 / 4) (- (3 / 4)) 0) 0; GPlane (GV (3 / 4) (3 / 4) 0) (- (3 / 4))]; GCell (0, 0, 0)%Z [GPlane (GV (- (3 / 4)) (3 / 4) 0) 0]].
Ltac num := match goal with |- context [Z.to_nat ?e] => let n := eval vm_compute in (Z.to_nat e) in change (Z.to_nat e) with n end; cbn [pow]; lra.
Lemma double_case : cuboid_holds 200 case_double case_real /\ vec_holds 200 (GV (dyadic 7 3) (dyadic 3 3) (dyadic 1 1)) (GV (7 / 8) (3 / 8) (1 / 2)) /\ stored 1 1 1 case_real /\
  walk (margin unit_roundoff (powerRZ 2 (-1075)) 2 1 1 2) 2 (gu_cells case_real) (fraction case_real (GV (7 / 8) (3 / 8) (1 / 2))) (GV (- (1 / 8)) (3 / 8) (1 / 2)) true.
Proof.
  assert (B : forall x b, - b <= x <= b -> Rabs x <= b) by (intros; apply Rabs_le; auto).
  assert (D : forall m e r, (Z.abs m < 2 ^ 53)%Z -> (0 <= e <= 1000)%Z -> r = IZR m / 2 ^ Z.to_nat e -> holds 200 (dyadic m e) r)
    by (intros; eapply holds_mono; [apply holds_dyadic; assumption|lia]).
  assert (H0 : holds 200 (dyadic 0 0) 0) by (apply D; [lia|lia|num]).
  assert (H1 : holds 200 (dyadic 1 0) 1) by (apply D; [lia|lia|num]).
  assert (H3 : holds 200 (dyadic 3 2) (3 / 4)) by (apply D; [lia|lia|num]).
  assert (H4 : holds 200 (dyadic (-3) 2) (- (3 / 4))) by (apply D; [lia|lia|num]).
  split; [|split; [|split]].
  - unfold cuboid_holds, case_double, case_real, vec_holds; cbn [gu_boxsize gu_n1 gu_n2 gu_n3 gu_resize gu_cells gx gy gz].
    do 5 (split; [split; [assumption|split; assumption]|]).
    assert (P : forall a b c d a' b' c' d', holds 200 a a' -> holds 200 b b' -> holds 200 c c' -> holds 200 d d' -> plane_holds 200 (GPlane (GV a b c) d) (GPlane (GV a' b' c') d')).
    { intros. split; [split; [assumption|split; assumption]|assumption]. }
    apply Forall2_cons; [|apply Forall2_cons; [|apply Forall2_nil]]; (split; [reflexivity|split; [|cbn [gc_ipos]; lia]]); cbn [gc_faces].
    + apply Forall2_cons; [apply P; assumption|]. apply Forall2_cons; [apply P; assumption|apply Forall2_nil].
    + apply Forall2_cons; [apply P; assumption|apply Forall2_nil].
  - split; [|split]; cbn [gx gy gz]; (apply D; [lia|lia|num]).
  - unfold stored, within, case_real; cbn [gu_cells gu_n1 gu_n2 gu_n3 gu_resize gx gy gz].
    split; [|repeat split; apply B; lra].
    intros k f [<- | [<- | []]]; cbn [gc_faces In]; intros I; repeat destruct I as [<- | I]; try contradiction; cbn [gp_n gp_d gx gy gz]; repeat split; apply B; lra.
  - assert (M : margin unit_roundoff (powerRZ 2 (-1075)) 2 1 1 2 < 1 / 8).
    { unfold margin. cbn [INR]. assert (0 <= unit_roundoff <= / 100000).
      { unfold unit_roundoff. split; [apply Rlt_le, Rinv_0_lt_compat, pow_lt; lra|]. apply Rinv_le_contravar; [lra|]. rewrite pow_IZR. apply IZR_le. vm_compute. discriminate. }
      assert (0 <= powerRZ 2 (-1075) <= / 100000).
      { rewrite pow2. split; [apply bpow_ge_0|]. eapply Rle_trans; [apply bpow_le with (e2 := (-20)%Z); lia|]. cbn. lra. }
      lra. }
    replace (fraction _ _) with (GV (7 / 8) (3 / 8) (1 / 2)) by (unfold fraction; cbn; f_equal; field). unfold case_real; cbn [gu_cells].
    apply walk_in with (t := true).
    + unfold within; cbn [gx gy gz]; repeat split; apply B; lra.
    + intros f [<- | [<- | []]]; unfold height, scalar; cbn [gp_n gp_d gx gy gz]; lra.
    + cbn [moved gc_ipos gx gy gz]. replace (7 / 8 + IZR (-1)) with (- (1 / 8)) by lra. rewrite !Rplus_0_r.
      apply walk_in with (t := false).
      * unfold within; cbn [gx gy gz]; repeat split; apply B; lra.
      * intros f [<- | []]; unfold height, scalar; cbn [gp_n gp_d gx gy gz]; lra.
      * cbn [moved gc_ipos gx gy gz]. rewrite !Rplus_0_r. apply walk_end. unfold within; cbn [gx gy gz]; repeat split; apply B; lra.
Qed.
