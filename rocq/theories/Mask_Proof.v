(** Proofs about linear interpolation, tabulated masks and mask collections. *)
Require Import Reals Lra Lia ZArith List Bool.
From Verif Require Import Base Vec3 Sky_Model Sky_Proof Cutsky_Model Box_Model Box_Proof2 Box_Proof3 Box_Proof4 Remap_Model Remap_Proof2 Mask_Model Mask_Spec.
Import ListNotations.
Open Scope R_scope.

(* ---------- linear interpolation ---------- *)
Definition sorted (z : list R) : Prop := increasing z = true.
Lemma sorted_cons : forall a b t, sorted (a :: b :: t) <-> a < b /\ sorted (b :: t).
Proof.
  intros. unfold sorted. cbn [increasing]. rewrite andb_true_iff. split; intros [A B]; split; auto.
  - apply Rltb_true in A; auto.
  - apply Rltb_true; auto.
Qed.
Lemma sorted_head : forall t a x, sorted (a :: t) -> In x t -> a < x.
Proof.
  induction t as [|b t IH]; intros a x H I; [easy|]. apply sorted_cons in H. destruct H as [A B].
  destruct I as [<-|I]; auto. apply Rlt_trans with b; auto.
Qed.
Lemma sorted_last : forall t a, sorted (a :: t) -> a <= last (a :: t) 0.
Proof.
  induction t as [|b t IH]; intros a H; [cbn; lra|]. apply sorted_cons in H. destruct H as [A B].
  change (last (a :: b :: t) 0) with (last (b :: t) 0). specialize (IH b B). lra.
Qed.

Lemma segment_between : forall a b t lo hi, 0 <= t <= 1 -> lo <= a <= hi -> lo <= b <= hi -> lo <= a + (b - a) * t <= hi.
Proof. intros. nra. Qed.
Lemma frac_range : forall z0 z1 x, z0 < z1 -> z0 <= x <= z1 -> 0 <= (x - z0) / (z1 - z0) <= 1.
Proof.
  intros. assert (P : 0 < / (z1 - z0)) by (apply Rinv_0_lt_compat; lra). unfold Rdiv.
  assert (E : (z1 - z0) * / (z1 - z0) = 1) by (apply Rinv_r; lra). nra.
Qed.

Lemma lin_step : forall z0 z1 z y0 y1 y x, lin (z0 :: z1 :: z) (y0 :: y1 :: y) x =
  if Rltb x z0 then 0 else if Rleb x z1 then y0 + (y1 - y0) * ((x - z0) / (z1 - z0)) else lin (z1 :: z) (y1 :: y) x.
Proof. reflexivity. Qed.

(** Interpolated values stay between bounds of the tabulated values (within the table), and between 0 and them outside. *)
Lemma lin_range : forall z y x lo hi, sorted z -> lo <= 0 <= hi -> Forall (fun v => lo <= v <= hi) y -> lo <= lin z y x <= hi.
Proof.
  induction z as [|z0 z IH]; intros y x lo hi S H0 F; [cbn; lra|].
  destruct z as [|z1 z]; [destruct y; cbn; lra|]. destruct y as [|y0 y]; [cbn; lra|]. destruct y as [|y1 y]; [cbn; lra|].
  apply sorted_cons in S. destruct S as [L S]. inversion F as [|? ? F0 F1]; subst. inversion F1 as [|? ? F2 F3]; subst.
  rewrite lin_step. destruct (Rltb x z0) eqn:A; [lra|]. apply Rltb_false in A.
  destruct (Rleb x z1) eqn:B.
  - apply Rleb_true in B. apply segment_between; auto. apply frac_range; lra.
  - apply IH; auto.
Qed.

Lemma lin_mono : forall z y y' x, sorted z -> Forall2 Rle y y' -> lin z y x <= lin z y' x.
Proof.
  induction z as [|z0 z IH]; intros y y' x S F; [cbn; lra|].
  destruct z as [|z1 z]; [inversion F; cbn; lra|]. inversion F as [|a b la lb A1 F1]; subst; [cbn; lra|].
  inversion F1 as [|c d lc ld A2 F2]; subst; [cbn; lra|]. apply sorted_cons in S. destruct S as [L S].
  rewrite !lin_step. destruct (Rltb x z0) eqn:A; [lra|]. apply Rltb_false in A. destruct (Rleb x z1) eqn:B.
  - apply Rleb_true in B. pose proof (frac_range z0 z1 x L (conj A B)). set (t := (x - z0) / (z1 - z0)) in *. nra.
  - apply IH; auto.
Qed.

Lemma lin_scale : forall c z y x, lin z (map (fun b => c * b) y) x = c * lin z y x.
Proof.
  induction z as [|z0 z IH]; intros y x; [cbn; lra|].
  destruct z as [|z1 z]; [destruct y; cbn; lra|]. destruct y as [|y0 y]; [cbn; lra|]. destruct y as [|y1 y]; [cbn; lra|].
  cbn [map]. rewrite !lin_step. destruct (Rltb x z0); [lra|]. destruct (Rleb x z1); [lra|]. apply (IH (y1 :: y)).
Qed.

Lemma lin_knot : forall z y a b, sorted z -> length z = length y -> (2 <= length z)%nat -> In (a, b) (combine z y) -> lin z y a = b.
Proof.
  induction z as [|z0 z IH]; intros y a b S L N I; [easy|].
  destruct z as [|z1 z]; [cbn in N; lia|]. destruct y as [|y0 y]; [easy|]. destruct y as [|y1 y]; [easy|].
  pose proof S as S0. apply sorted_cons in S. destruct S as [Lt S]. rewrite lin_step.
  cbn [combine In] in I. destruct I as [I|I].
  - injection I as <- <-. destruct (Rltb z0 z0) eqn:A; [apply Rltb_true in A; lra|]. destruct (Rleb z0 z1) eqn:B; [|apply Rleb_false in B; lra].
    replace (z0 - z0) with 0 by ring. unfold Rdiv. ring.
  - assert (Ia : In a (z1 :: z)) by (exact (in_combine_l (z1 :: z) (y1 :: y) a b I)).
    assert (za : z0 < a) by (apply sorted_head with (z1 :: z); auto).
    destruct (Rltb a z0) eqn:A; [apply Rltb_true in A; lra|]. destruct (Rleb a z1) eqn:B.
    + apply Rleb_true in B. destruct I as [I|I].
      * injection I as <- <-. field. lra.
      * exfalso. apply in_combine_l in I. pose proof (sorted_head z z1 a S I). lra.
    + apply Rleb_false in B. destruct I as [I|I]; [injection I as <- <-; lra|].
      destruct z as [|z2 z]; [easy|]. apply IH; auto; cbn in *; try lia. right; auto.
Qed.

Lemma lin_outside_low : forall z0 z y x, sorted (z0 :: z) -> x < z0 -> lin (z0 :: z) y x = 0.
Proof.
  intros z0 [|z1 z] y x S H; [destruct y; reflexivity|]. destruct y as [|y0 [|y1 y]]; [reflexivity|reflexivity|].
  rewrite lin_step. destruct (Rltb x z0) eqn:A; auto. apply Rltb_false in A. lra.
Qed.

Lemma continuity_pt_ext : forall f g t, (forall n, f n = g n) -> continuity_pt f t -> continuity_pt g t.
Proof.
  intros f g t E C eps He. destruct (C eps He) as (d & Hd & H). exists d. split; auto. intros x Hx. specialize (H x Hx).
  cbn in *. rewrite <- !E. exact H.
Qed.

(** Interpolation as a convex combination of tabulated values: [lin] depends continuously on a parameter of the values. *)
Lemma lin_continuous : forall z (y : list (R -> R)) x, Forall continuity y -> continuity (fun n => lin z (map (fun f => f n) y) x).
Proof.
  induction z as [|z0 z IH]; intros y x F.
  - cbn. intros t. apply continuity_pt_const. intros ? ?; reflexivity.
  - destruct z as [|z1 z].
    { destruct y; cbn; intros t; apply continuity_pt_const; intros ? ?; reflexivity. }
    destruct y as [|y0 y]; [cbn; intros t; apply continuity_pt_const; intros ? ?; reflexivity|].
    destruct y as [|y1 y]; [cbn; intros t; apply continuity_pt_const; intros ? ?; reflexivity|].
    inversion F as [|? ? F0 F1]; subst. inversion F1 as [|? ? F2 F3]; subst. cbn [map].
    destruct (Rltb x z0) eqn:A; [|destruct (Rleb x z1) eqn:B].
    + intros t. apply continuity_pt_ext with (f := fun _ => 0); [|apply continuity_pt_const; intros ? ?; reflexivity].
      intros n. rewrite lin_step, A. reflexivity.
    + intros t. apply continuity_pt_ext with (f := (y0 + (y1 - y0) * (fct_cte ((x - z0) / (z1 - z0))))%F).
      { intros n. rewrite lin_step, A, B. reflexivity. }
      apply continuity_pt_plus; [apply F0|]. apply continuity_pt_mult; [apply continuity_pt_minus; [apply F2|apply F0]|].
      apply continuity_pt_const. intros ? ?; reflexivity.
    + intros t. apply continuity_pt_ext with (f := fun n => lin (z1 :: z) (map (fun f => f n) (y1 :: y)) x); [|apply IH; auto].
      intros n. cbn [map]. rewrite lin_step, A, B. reflexivity.
Qed.

Lemma Rmin_continuity : forall f g, continuity f -> continuity g -> continuity (fun x => Rmin (f x) (g x)).
Proof.
  intros f g F G t. apply continuity_pt_ext with (f := fun x => / 2 * ((f x + g x) - Rabs (f x - g x))).
  { intros n. unfold Rmin, Rabs. destruct (Rle_dec (f n) (g n)), (Rcase_abs (f n - g n)); lra. }
  apply continuity_pt_ext with (f := (fct_cte (/ 2) * ((f + g) - comp Rabs (f - g)%F))%F); [intros n; reflexivity|].
  apply continuity_pt_mult; [apply continuity_pt_const; intros ? ?; reflexivity|].
  apply continuity_pt_minus; [apply continuity_pt_plus; [apply F|apply G]|].
  apply continuity_pt_comp; [apply continuity_pt_minus; [apply F|apply G]|apply Rcontinuity_abs].
Qed.

Lemma Rsum_continuity : forall (l : list (R -> R)), Forall continuity l -> continuity (fun n => Rsum (map (fun f => f n) l)).
Proof.
  induction l as [|f l IH]; intros F t.
  - apply continuity_pt_const. intros ? ?; reflexivity.
  - inversion F; subst. apply continuity_pt_ext with (f := (f + (fun n => Rsum (map (fun f => f n) l)))%F); [intros n; reflexivity|].
    apply continuity_pt_plus; [auto|]. apply IH; auto.
Qed.

(* ---------- tabulated masks ---------- *)
Definition well (m : tmask) : Prop :=
  sorted (t_z m) /\ length (t_z m) = length (t_nbar m) /\ (2 <= length (t_z m))%nat /\ Forall (fun b => 0 <= b) (t_nbar m).
Definition with_norm (m : tmask) (n : R) : tmask := TMask (t_z m) (t_nbar m) (t_lo m) (t_hi m) (Some n).
Definition tprob (m : tmask) (n z : R) : R :=
  if between (t_lo m) (t_hi m) z then lin (t_z m) (map (fun b => Rmin (n * b) 1) (t_nbar m)) z else 0.

Lemma between_spec : forall lo hi x, between lo hi x = true <-> lo <= x <= hi.
Proof.
  intros. unfold between. rewrite andb_true_iff. split.
  - intros [A B]. apply Rleb_true in A, B. auto.
  - intros [A B]. split; apply Rleb_true; auto.
Qed.
Lemma spline_ok : forall z y, sorted z -> length z = length y -> (2 <= length z)%nat -> lin_spline z y = Ok (lin z y).
Proof.
  intros z y S L N. unfold lin_spline. rewrite L, Nat.eqb_refl, <- L. unfold sorted in S. rewrite S. apply Nat.leb_le in N. rewrite N. reflexivity.
Qed.
Lemma spline_inv : forall z y f, lin_spline z y = Ok f -> sorted z /\ length z = length y /\ (2 <= length z)%nat /\ f = lin z y.
Proof.
  intros z y f H. unfold lin_spline in H. destruct (Nat.eqb (length z) (length y) && Nat.leb 2 (length z) && increasing z) eqn:E; [|discriminate].
  injection H as <-. rewrite !andb_true_iff in E. destruct E as [[A B] C]. apply Nat.eqb_eq in A. apply Nat.leb_le in B. auto.
Qed.
Lemma well_interp : forall m n, well m -> t_interp (with_norm m n) = Ok (lin (t_z m) (map (fun b => Rmin (n * b) 1) (t_nbar m))).
Proof. intros m n (S & L & N & F). unfold t_interp, with_norm, knots. cbn. apply spline_ok; auto. rewrite map_length; auto. Qed.
Lemma well_prob : forall m n z, well m -> tabulated_prob (with_norm m n) z = Ok (tprob m n z).
Proof. intros m n z W. unfold tabulated_prob. rewrite well_interp; auto. Qed.
Lemma well_prepare : forall m n, well m -> prepare m (Some n) = Ok (with_norm m n).
Proof. intros m n W. unfold prepare. cbn [bind]. change (TMask _ _ _ _ _) with (with_norm m n). rewrite well_interp; auto. Qed.

Lemma forallb_nonneg : forall l, forallb (fun b => Rleb 0 b) l = true <-> Forall (fun b => 0 <= b) l.
Proof.
  intros l. rewrite forallb_forall, Forall_forall. split; intros H x I; specialize (H x I); [apply Rleb_true in H|apply Rleb_true]; auto.
Qed.

Definition default_norm (m : tmask) (n : R) : Prop :=
  nbar_in_range m <> [] /\
  let top := Rmax (Rmax (list_max (nbar_in_range m)) (lin (t_z m) (t_nbar m) (t_lo m))) (lin (t_z m) (t_nbar m) (t_hi m)) in
  top <> 0 /\ n = 1 / top.

Lemma prepare_inv : forall m o m', prepare m o = Ok m' -> Forall (fun b => 0 <= b) (t_nbar m) ->
  exists n, m' = with_norm m n /\ well m /\ match o with Some n' => n = n' | None => default_norm m n end.
Proof.
  intros m o m' H F. unfold prepare in H.
  destruct (match o with Some _ => _ | None => _ end) as [n|] eqn:E in H; [|discriminate].
  cbn [bind] in H. change (TMask _ _ _ _ _) with (with_norm m n) in H.
  destruct (t_interp (with_norm m n)) as [f|] eqn:T; [|discriminate]. injection H as <-. exists n.
  assert (W : well m).
  { unfold t_interp, with_norm, knots in T. cbn in T. apply spline_inv in T. destruct T as (A & B & C & _). rewrite map_length in B.
    split; auto. }
  split; [reflexivity|]. split; auto. destruct o as [n'|]; [congruence|].
  destruct W as (S & L & N & _). unfold t_interp, knots in E. cbn [t_norm t_z t_nbar] in E. rewrite spline_ok in E; auto. cbn [bind] in E.
  unfold default_norm. change (nbar_in_range {| t_z := t_z m; t_nbar := t_nbar m; t_lo := t_lo m; t_hi := t_hi m; t_norm := None |}) with (nbar_in_range m) in E.
  cbn [t_lo t_hi] in E. destruct (nbar_in_range m) as [|b l] eqn:El; [discriminate|].
  split; [discriminate|]. apply fdiv_inv in E. exact E.
Qed.

Lemma tabulated_new_inv : forall z nbar range norm m, tabulated_new z nbar range norm = Ok m ->
  let lo := match range with Some r => fst r | None => hd 0 z end in
  let hi := match range with Some r => snd r | None => last z 0 end in
  exists n, m = TMask z nbar lo hi (Some n) /\ well m /\ hd 0 z <= lo /\ hi <= last z 0 /\
    match norm with Some n' => n = n' | None => default_norm m n end.
Proof.
  intros z nbar range norm m H lo hi. unfold tabulated_new in H. destruct (forallb _ nbar) eqn:F; [|discriminate]. apply forallb_nonneg in F.
  destruct z as [|z0 z]; [discriminate|].
  assert (E : (match range with Some r => r | None => (z0, last (z0 :: z) 0) end) = (lo, hi)) by (destruct range as [[? ?]|]; reflexivity).
  rewrite E in H. destruct (Rleb z0 lo && Rleb hi (last (z0 :: z) 0)) eqn:B; [|discriminate].
  rewrite andb_true_iff in B. destruct B as [B1 B2]. apply Rleb_true in B1, B2.
  apply prepare_inv in H; auto. destruct H as (n & E1 & W & D). exists n. subst m.
  split; [reflexivity|]. split; [exact W|]. split; [exact B1|]. split; [exact B2|]. destruct norm; auto.
Qed.

Lemma tprob_range : forall m n z, well m -> 0 <= n -> 0 <= tprob m n z <= 1.
Proof.
  intros m n z (S & L & N & F) Hn. unfold tprob. destruct (between _ _ z); [|lra]. apply lin_range; auto; [lra|].
  rewrite Forall_forall in *. intros v I. apply in_map_iff in I. destruct I as (b & <- & I). specialize (F b I).
  unfold Rmin. destruct (Rle_dec (n * b) 1); nra.
Qed.
Lemma tprob_outside : forall m n z, ~ (t_lo m <= z <= t_hi m) -> tprob m n z = 0.
Proof. intros m n z H. unfold tprob. destruct (between _ _ z) eqn:E; auto. apply between_spec in E. easy. Qed.
Lemma combine_map_r : forall {A B C} (f : B -> C) (a : list A) (b : list B) x y, In (x, y) (combine a b) -> In (x, f y) (combine a (map f b)).
Proof. induction a as [|a l IH]; intros [|b m] x y I; try easy. destruct I as [I|I]; [injection I as <- <-; left; auto|right; apply IH; auto]. Qed.
Lemma tprob_knot : forall m n z b, well m -> t_lo m <= z <= t_hi m -> In (z, b) (combine (t_z m) (t_nbar m)) -> tprob m n z = Rmin (n * b) 1.
Proof.
  intros m n z b (S & L & N & F) H I. unfold tprob. apply between_spec in H. rewrite H. apply lin_knot; auto; [rewrite map_length; auto|].
  apply (combine_map_r (fun b => Rmin (n * b) 1)). auto.
Qed.

Lemma select_by_In : forall {A} (f : R -> bool) z (l : list A) b, In b (select_by (map f z) l) <-> exists x, In (x, b) (combine z l) /\ f x = true.
Proof.
  induction z as [|z0 z IH]; intros [|y0 l] b; cbn [map select_by combine].
  - split; [easy|intros (x & [] & _)].
  - split; [easy|intros (x & [] & _)].
  - split; [easy|intros (x & [] & _)].
  - destruct (f z0) eqn:E; cbn [In]; rewrite IH; split.
    + intros [<-|(x & I & H)]; [exists z0; auto|exists x; auto].
    + intros (x & [I|I] & H); [injection I as -> ->; auto|right; exists x; auto].
    + intros (x & I & H); exists x; auto.
    + intros (x & [I|I] & H); [injection I as -> ->; congruence|exists x; auto].
Qed.

Lemma default_norm_pos : forall m n, well m -> default_norm m n -> 0 < n.
Proof.
  intros m n W (Ne & D). cbn zeta in D. destruct D as [D ->].
  assert (P : 0 <= list_max (nbar_in_range m)).
  { destruct (nbar_in_range m) as [|b l] eqn:E; [easy|]. apply Rle_trans with b; [|apply list_max_ge; left; auto].
    assert (I : In b (nbar_in_range m)) by (rewrite E; left; auto). unfold nbar_in_range in I. apply select_by_In in I. destruct I as (x & I & _).
    apply in_combine_r in I. destruct W as (_ & _ & _ & F). rewrite Forall_forall in F. auto. }
  set (top := Rmax _ _) in *. assert (0 <= top) by (unfold top; apply Rle_trans with (1 := P); eapply Rle_trans; apply Rmax_l).
  apply Rdiv_lt_0_compat; lra.
Qed.
Lemma default_norm_knot : forall m n z b, well m -> default_norm m n -> t_lo m <= z <= t_hi m -> In (z, b) (combine (t_z m) (t_nbar m)) -> n * b <= 1.
Proof.
  intros m n z b W D H I. pose proof (default_norm_pos m n W D) as Pn. destruct D as (Ne & D). cbn zeta in D. destruct D as [D ->].
  assert (B : b <= list_max (nbar_in_range m)).
  { apply list_max_ge. unfold nbar_in_range. apply select_by_In. exists z. split; auto. apply between_spec; auto. }
  set (top := Rmax _ _) in *. assert (b <= top) by (unfold top; apply Rle_trans with (1 := B); eapply Rle_trans; apply Rmax_l).
  assert (0 < top). { apply Rnot_le_lt. intros C. assert (top < 0) by lra. assert (1 / top < 0) by (unfold Rdiv; rewrite Rmult_1_l; apply Rinv_lt_0_compat; lra). lra. }
  apply Rmult_le_reg_l with top; auto. replace (top * (1 / top * b)) with b by (field; lra). lra.
Qed.

(** The default normalisation makes the largest tabulated value certain when the maximum over the range is at a tabulated point. *)
Lemma default_norm_top : forall m n z b, well m -> default_norm m n -> t_lo m <= z <= t_hi m -> In (z, b) (combine (t_z m) (t_nbar m)) ->
  (forall z' b', t_lo m <= z' <= t_hi m -> In (z', b') (combine (t_z m) (t_nbar m)) -> b' <= b) ->
  lin (t_z m) (t_nbar m) (t_lo m) <= b -> lin (t_z m) (t_nbar m) (t_hi m) <= b -> tprob m n z = 1.
Proof.
  intros m n z b W (Ne & D) H I M E1 E2. cbn zeta in D. destruct D as [D ->]. rewrite tprob_knot with (b := b); auto.
  assert (T : list_max (nbar_in_range m) = b).
  { apply Rle_antisym.
    - apply list_max_le; auto. intros x Ix. unfold nbar_in_range in Ix. apply select_by_In in Ix. destruct Ix as (z' & Iz & Bz). apply between_spec in Bz. eauto.
    - apply list_max_ge. unfold nbar_in_range. apply select_by_In. exists z. split; auto. apply between_spec; auto. }
  rewrite T in *. rewrite Rmax_left in * by (rewrite Rmax_left; lra). rewrite Rmax_left in * by lra.
  replace (1 / b * b) with 1 by (field; auto). unfold Rmin. destruct (Rle_dec 1 1); lra.
Qed.

Lemma in_last : forall (z : list R), z <> [] -> In (last z 0) z.
Proof. induction z as [|a z IH]; intros H; [easy|]. destruct z as [|b z]; [left; auto|]. right. apply IH. discriminate. Qed.
Lemma sorted_le_last : forall z x, sorted z -> In x z -> x <= last z 0.
Proof.
  induction z as [|a z IH]; intros x S I; [easy|]. destruct I as [<-|I]; [apply sorted_last; auto|]. destruct z as [|b z]; [easy|].
  apply sorted_cons in S. destruct S. change (last (a :: b :: z) 0) with (last (b :: z) 0). apply IH; auto.
Qed.
Lemma sorted_ge_head : forall z x, sorted z -> In x z -> hd 0 z <= x.
Proof. intros [|a z] x S I; [easy|]. destruct I as [<-|I]; [cbn; lra|]. cbn. apply Rlt_le. apply sorted_head with z; auto. Qed.
Lemma in_combine_ex : forall {A B} (a : list A) (b : list B) x, length a = length b -> In x a -> exists y, In (x, y) (combine a b).
Proof.
  induction a as [|x0 a IH]; intros [|y0 b] x L I; try easy. destruct I as [->|I]; [exists y0; left; auto|].
  destruct (IH b x) as (y & Iy); auto. exists y; right; auto.
Qed.
Lemma list_max_In : forall l, l <> [] -> In (list_max l) l.
Proof.
  intros [|a l] H; [easy|]. cbn [list_max]. clear H. revert a. induction l as [|b l IH]; intros a; [left; auto|].
  cbn [fold_left]. destruct (IH (Rmax a b)) as [E|I]; [|right; right; auto]. rewrite <- E. unfold Rmax. destruct (Rle_dec a b); [right; left|left]; auto.
Qed.

Lemma whole_table_top : forall m n, well m -> default_norm m n -> t_lo m = hd 0 (t_z m) -> t_hi m = last (t_z m) 0 ->
  exists z b, In (z, b) (combine (t_z m) (t_nbar m)) /\ tprob m n z = 1.
Proof.
  intros m n W D Lo Hi. pose proof W as (S & L & N & F).
  assert (R0 : forall z b, In (z, b) (combine (t_z m) (t_nbar m)) -> t_lo m <= z <= t_hi m).
  { intros z b I. apply in_combine_l in I. rewrite Lo, Hi. split; [apply sorted_ge_head|apply sorted_le_last]; auto. }
  assert (T : In (list_max (nbar_in_range m)) (nbar_in_range m)) by (apply list_max_In; apply D).
  pose proof T as T'. unfold nbar_in_range in T'. apply select_by_In in T'. destruct T' as (z & I & B). fold (nbar_in_range m) in I.
  assert (M : forall z' b', In (z', b') (combine (t_z m) (t_nbar m)) -> b' <= list_max (nbar_in_range m)).
  { intros z' b' I'. apply list_max_ge. unfold nbar_in_range. apply select_by_In. exists z'. split; auto. apply between_spec. eauto. }
  assert (Nz : t_z m <> []) by (destruct (t_z m); [cbn in N; lia|discriminate]).
  exists z, (list_max (nbar_in_range m)). split; auto. eapply default_norm_top; eauto.
  - destruct (in_combine_ex (t_z m) (t_nbar m) (t_lo m)) as (b & Ib); auto.
    { rewrite Lo. destruct (t_z m); [easy|left; auto]. }
    rewrite (lin_knot _ _ _ b); eauto.
  - destruct (in_combine_ex (t_z m) (t_nbar m) (t_hi m)) as (b & Ib); auto.
    { rewrite Hi. apply in_last; auto. }
    rewrite (lin_knot _ _ _ b); eauto.
Qed.
