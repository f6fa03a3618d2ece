(** Proofs for Wobble_Thm.v: rounded numbers. *)
Require Import Reals ZArith List Bool Lra Lia SpecFloat.
From Verif Require Import Base Vec3 Wobble_Model Wobble_Spec.
Import ListNotations.
Open Scope R_scope.

Section Rounding.
Variables (eps eta : R) (rnd : R -> R).
Hypothesis Hr : rounds eps eta rnd.
Hypothesis He : 0 <= eps <= 1 / 100.
Hypothesis Ht : 0 <= eta <= 1 / 100.
Notation A := (rounded rnd).

Lemma rnd_le : forall x t, Rabs x <= t -> Rabs (rnd x - x) <= eps * t + eta.
Proof. intros x t H. specialize (Hr x). assert (eps * Rabs x <= eps * t) by (apply Rmult_le_compat_l; lra). lra. Qed.
Lemma abs_both : forall x a, Rabs x <= a -> - a <= x <= a.
Proof. intros x a H. unfold Rabs in H. destruct (Rcase_abs x); lra. Qed.
Lemma abs_bound : forall x y d t, Rabs (x - y) <= d -> Rabs y <= t -> Rabs x <= d + t.
Proof. intros x y d t H K. replace x with ((x - y) + y) by ring. eapply Rle_trans; [apply Rabs_triang|]. lra. Qed.
Lemma abs_step : forall x y z d e, Rabs (x - y) <= d -> Rabs (y - z) <= e -> Rabs (x - z) <= d + e.
Proof. intros x y z d e H K. replace (x - z) with ((x - y) + (y - z)) by ring. eapply Rle_trans; [apply Rabs_triang|]. lra. Qed.
Lemma abs_sum : forall a b x y d e, Rabs (a - x) <= d -> Rabs (b - y) <= e -> Rabs ((a + b) - (x + y)) <= d + e.
Proof. intros a b x y d e H K. replace (a + b - (x + y)) with ((a - x) + (b - y)) by ring. eapply Rle_trans; [apply Rabs_triang|]. lra. Qed.
Lemma abs_prod : forall a b n m, Rabs a <= n -> Rabs b <= m -> Rabs (a * b) <= n * m.
Proof. intros. rewrite Rabs_mult. apply Rmult_le_compat; auto using Rabs_pos. Qed.

(** Error of the computed scalar product. *)
Lemma dot_error : forall u v n m, within n u -> within m v -> 0 <= n -> 0 <= m ->
  Rabs (gdot A u v - scalar u v) <= 10 * eps * (n * m) + 8 * eta.
Proof.
  intros u v n m (U1 & U2 & U3) (V1 & V2 & V3) Hn Hm. unfold gdot, scalar; cbn [aadd amul of_Z rounded num].
  assert (S0 : 0 <= n * m) by (apply Rmult_le_pos; auto).
  set (s := n * m) in *.
  pose proof (abs_prod _ _ _ _ U1 V1) as P1. pose proof (abs_prod _ _ _ _ U2 V2) as P2. pose proof (abs_prod _ _ _ _ U3 V3) as P3. fold s in P1, P2, P3.
  pose proof (rnd_le _ _ P1) as E1. pose proof (rnd_le _ _ P2) as E2. pose proof (rnd_le _ _ P3) as E3.
  set (a1 := gx u * gx v) in *. set (a2 := gy u * gy v) in *. set (a3 := gz u * gz v) in *.
  set (t1 := rnd a1) in *. set (t2 := rnd a2) in *. set (t3 := rnd a3) in *.
  set (w := eps * s + eta) in *.
  assert (ES : eps * s <= 1 / 100 * s) by (apply Rmult_le_compat_r; lra).
  assert (ES0 : 0 <= eps * s) by (apply Rmult_le_pos; lra).
  assert (F1 : Rabs (rnd (0 + t1) - (0 + t1)) <= eps * (w + s) + eta).
  { apply rnd_le. replace (0 + t1) with t1 by ring. apply (abs_bound _ _ _ _ E1 P1). }
  assert (G1 : Rabs (rnd (0 + t1) - a1) <= eps * (w + s) + eta + w).
  { apply (abs_step _ (0 + t1)); [exact F1|]. replace (0 + t1 - a1) with (t1 - a1) by ring. exact E1. }
  set (s1 := rnd (0 + t1)) in *.
  assert (H2 : Rabs (s1 + t2 - (a1 + a2)) <= eps * (w + s) + eta + w + w) by (apply abs_sum; auto).
  assert (Q2 : Rabs (a1 + a2) <= 2 * s) by (eapply Rle_trans; [apply Rabs_triang|]; lra).
  pose proof (rnd_le _ _ (abs_bound _ _ _ _ H2 Q2)) as F2.
  set (s2 := rnd (s1 + t2)) in *.
  pose proof (abs_step _ _ _ _ _ F2 H2) as G2.
  pose proof (abs_sum _ _ _ _ _ _ G2 E3) as H3.
  assert (Q3 : Rabs (a1 + a2 + a3) <= 3 * s) by (eapply Rle_trans; [apply Rabs_triang|]; lra).
  pose proof (rnd_le _ _ (abs_bound _ _ _ _ H3 Q3)) as F3.
  pose proof (abs_step _ _ _ _ _ F3 H3) as G3.
  eapply Rle_trans; [exact G3|].
  assert (K : forall x, 0 <= x -> eps * x <= 1 / 100 * x) by (intros; apply Rmult_le_compat_r; lra).
  assert (K0 : forall x, 0 <= x -> 0 <= eps * x) by (intros; apply Rmult_le_pos; lra).
  assert (W0 : 0 <= w) by (unfold w; lra).
  (* everything is eps * s and eta times numbers, with powers of eps bounded *)
  pose proof (K0 w W0) as M1. pose proof (K w W0) as M1'.
  pose proof (K0 _ M1) as M2. pose proof (K _ M1) as M2'.
  pose proof (K0 _ M2) as M3. pose proof (K _ M2) as M3'.
  pose proof (K0 _ ES0) as N1. pose proof (K _ ES0) as N1'.
  pose proof (K0 _ N1) as N2. pose proof (K _ N1) as N2'.
  pose proof (K0 eta ltac:(lra)) as L1. pose proof (K eta ltac:(lra)) as L1'.
  pose proof (K0 _ L1) as L2. pose proof (K _ L1) as L2'.
  assert (R1 : eps * (w + s) = eps * w + eps * s) by ring.
  unfold w in *. ring_simplify. ring_simplify in M1'. ring_simplify in M2'. ring_simplify in N1'. ring_simplify in N2'. ring_simplify in L1'. ring_simplify in L2'. ring_simplify in M3'.
  ring_simplify in M1. ring_simplify in M2. ring_simplify in M3. ring_simplify in N1. ring_simplify in N2. ring_simplify in L1. ring_simplify in L2. nra.
Qed.

(** Positions: computed [p'], exact [p]. *)
Variables (n d s b : R) (k : nat).
Hypothesis Hn : 0 <= n.
Hypothesis Hd : 0 <= d.
Hypothesis Hb : 1 <= b.
Hypothesis K1 : 4 * (INR k + 1) * eps <= 1.
Hypothesis K2 : 4 * (INR k + 1) * eta <= 1.
Notation slack j := (2 * (INR j + 1) * (eps * b + eta)).
Notation top := (slack k).

Lemma unit_pos : 0 <= eps * b + eta.
Proof. assert (0 <= eps * b) by (apply Rmult_le_pos; lra). lra. Qed.
Lemma slack_mono : forall j, (j <= k)%nat -> slack j <= top.
Proof.
  intros j H. apply le_INR in H. pose proof unit_pos. apply Rmult_le_compat_r; lra.
Qed.
Lemma top_small : top <= b.
Proof.
  assert (2 * (INR k + 1) * (eps * b + eta) = (4 * (INR k + 1) * eps) * (b / 2) + (4 * (INR k + 1) * eta) * (1 / 2)) by field.
  assert ((4 * (INR k + 1) * eps) * (b / 2) <= 1 * (b / 2)) by (apply Rmult_le_compat_r; lra).
  assert ((4 * (INR k + 1) * eta) * (1 / 2) <= 1 * (1 / 2)) by (apply Rmult_le_compat_r; lra). lra.
Qed.
Lemma near_within : forall e p' p, near e p' p -> e <= b -> within b p -> within (2 * b) p'.
Proof.
  intros e p' p (A1 & A2 & A3) H (B1 & B2 & B3).
  pose proof (abs_bound _ _ _ _ A1 B1). pose proof (abs_bound _ _ _ _ A2 B2). pose proof (abs_bound _ _ _ _ A3 B3). repeat split; lra.
Qed.
Lemma scalar_near : forall u p' p e, within n u -> near e p' p -> 0 <= e -> Rabs (scalar u p' - scalar u p) <= 3 * n * e.
Proof.
  intros u p' p e (U1 & U2 & U3) (A1 & A2 & A3) H. unfold scalar.
  replace (gx u * gx p' + gy u * gy p' + gz u * gz p' - (gx u * gx p + gy u * gy p + gz u * gz p)) with
    (gx u * (gx p' - gx p) + gy u * (gy p' - gy p) + gz u * (gz p' - gz p)) by ring.
  pose proof (abs_prod _ _ _ _ U1 A1). pose proof (abs_prod _ _ _ _ U2 A2). pose proof (abs_prod _ _ _ _ U3 A3).
  eapply Rle_trans; [apply Rabs_triang|]. eapply Rle_trans; [apply Rplus_le_compat_r, Rabs_triang|]. lra.
Qed.
Lemma scalar_within : forall u p m, within n u -> within m p -> Rabs (scalar u p) <= 3 * (n * m).
Proof.
  intros u p m (U1 & U2 & U3) (A1 & A2 & A3). unfold scalar.
  pose proof (abs_prod _ _ _ _ U1 A1). pose proof (abs_prod _ _ _ _ U2 A2). pose proof (abs_prod _ _ _ _ U3 A3).
  eapply Rle_trans; [apply Rabs_triang|]. eapply Rle_trans; [apply Rplus_le_compat_r, Rabs_triang|]. lra.
Qed.

Lemma nb_pos : 0 <= n * b. Proof. apply Rmult_le_pos; lra. Qed.
(** Error of the computed height. *)
Lemma height_error : forall f p' p, within n (gp_n f) -> Rabs (gp_d f) <= d -> within b p -> near top p' p ->
  Rabs (gtest A f p' - height f p) <= margin eps eta k n d b.
Proof.
  intros f p' p Hf Hfd W N. pose proof (near_within _ _ _ N top_small W) as W'.
  pose proof (dot_error (gp_n f) p' n (2 * b) Hf W' Hn ltac:(lra)) as D.
  pose proof (scalar_within _ _ _ Hf W') as S1. pose proof unit_pos as UP. pose proof nb_pos as NB.
  assert (T0 : 0 <= top) by (pose proof (pos_INR k); apply Rmult_le_pos; lra).
  pose proof (scalar_near _ _ _ _ Hf N T0) as D2.
  unfold gtest; cbn [aadd rounded]. unfold height.
  pose proof (abs_bound _ _ _ _ D S1) as X.
  assert (Y : Rabs (gdot A (gp_n f) p' + gp_d f) <= 10 * eps * (n * (2 * b)) + 8 * eta + 3 * (n * (2 * b)) + d).
  { eapply Rle_trans; [apply Rabs_triang|]. lra. }
  pose proof (rnd_le _ _ Y) as Z.
  assert (Q : Rabs (gdot A (gp_n f) p' + gp_d f - (scalar (gp_n f) p + gp_d f)) <= 10 * eps * (n * (2 * b)) + 8 * eta + 3 * n * top).
  { replace (gdot A (gp_n f) p' + gp_d f - (scalar (gp_n f) p + gp_d f)) with (gdot A (gp_n f) p' - scalar (gp_n f) p) by ring. eapply abs_step; eauto. }
  pose proof (abs_step _ _ _ _ _ Z Q) as R. eapply Rle_trans; [exact R|]. unfold margin.
  assert (E1 : eps * (10 * eps * (n * (2 * b))) <= 1 / 100 * (20 * (eps * (n * b)))).
  { replace (eps * (10 * eps * (n * (2 * b)))) with (eps * (20 * (eps * (n * b)))) by ring.
    apply Rmult_le_compat_r; [|lra]. assert (0 <= eps * (n * b)) by (apply Rmult_le_pos; lra). lra. }
  assert (E2 : eps * (8 * eta) <= 1 / 100 * (8 * eta)) by (apply Rmult_le_compat_r; lra).
  assert (E3 : 0 <= eps * (n * b)) by (apply Rmult_le_pos; lra).
  set (g := INR k) in *. nra.
Qed.

(** The decision on a cell. *)
Lemma isin_clear : forall c p' p, (forall f, In f (gc_faces c) -> within n (gp_n f) /\ Rabs (gp_d f) <= d) -> within b p -> near top p' p ->
  (forall f, In f (gc_faces c) -> margin eps eta k n d b < height f p) -> gisin A c p' = true.
Proof.
  intros c p' p Hf W N H. unfold gisin. apply forallb_forall. intros f I. destruct (Hf f I) as [H1 H2].
  pose proof (height_error f p' p H1 H2 W N) as E. specialize (H f I). cbn [aleb of_Z rounded]. apply Rleb_true. apply abs_both in E. lra.
Qed.
Lemma isin_out : forall c p' p, (forall f, In f (gc_faces c) -> within n (gp_n f) /\ Rabs (gp_d f) <= d) -> within b p -> near top p' p ->
  (exists f, In f (gc_faces c) /\ height f p < - margin eps eta k n d b) -> gisin A c p' = false.
Proof.
  intros c p' p Hf W N (f & I & H). destruct (gisin A c p') eqn:E; auto. unfold gisin in E. rewrite forallb_forall in E. specialize (E f I).
  cbn [aleb of_Z rounded] in E. apply Rleb_true in E. destruct (Hf f I) as [H1 H2].
  pose proof (height_error f p' p H1 H2 W N) as Q. apply abs_both in Q. lra.
Qed.

(** Shifts. *)
Lemma shift_error : forall j p' p i, (j + 1 <= k)%nat -> near (slack j) p' p -> within b (moved p i) ->
  near (slack (j + 1)) (gadd A p' (gvec_of A i)) (moved p i).
Proof.
  intros j p' p [[i1 i2] i3] J (A1 & A2 & A3) (B1 & B2 & B3). cbn [moved gx gy gz] in *. unfold near, gadd, gvec_of; cbn [gx gy gz aadd of_Z rounded].
  pose proof unit_pos as UP.
  assert (T : forall a' a z, Rabs (a' - a) <= slack j -> Rabs (a + IZR z) <= b -> Rabs (rnd (a' + IZR z) - (a + IZR z)) <= slack (j + 1)).
  { intros a' a z H1 H2.
    assert (H3 : Rabs (a' + IZR z - (a + IZR z)) <= slack j) by (replace (a' + IZR z - (a + IZR z)) with (a' - a) by ring; auto).
    pose proof (rnd_le _ _ (abs_bound _ _ _ _ H3 H2)) as H4. pose proof (abs_step _ _ _ _ _ H4 H3) as H5. eapply Rle_trans; [exact H5|].
    rewrite plus_INR. cbn [INR]. assert (J' : INR j + 1 <= INR k) by (apply le_INR in J; rewrite plus_INR in J; cbn in J; lra).
    assert (P : eps * slack j <= 1 / 2 * (eps * b + eta)).
    { replace (eps * slack j) with ((2 * (INR j + 1) * eps) * (eps * b + eta)) by ring. apply Rmult_le_compat_r; auto.
      assert (2 * (INR j + 1) * eps <= 2 * (INR k + 1) * eps) by (apply Rmult_le_compat_r; lra). lra. }
    lra. }
  repeat split; apply T; auto.
Qed.

Notation step := (fun '(m, p) (c : gcell R) => if gisin A c p then (true, gadd A p (gvec_of A (gc_ipos c))) else (m, p)).
(** Along a walk, the computed loop makes the same decisions. *)
Lemma loop_walk : forall l p q t, walk (margin eps eta k n d b) b l p q t ->
  (forall c f, In c l -> In f (gc_faces c) -> within n (gp_n f) /\ Rabs (gp_d f) <= d) ->
  forall j p' m, (j + length l <= k)%nat -> near (slack j) p' p ->
  exists q', fold_left step l (m, p') = (orb m t, q') /\ near (slack (j + length l)) q' q /\ within b q.
Proof.
  induction 1 as [p W | c l p q t W Hin Hw IH | c l p q t W Hout Hw IH]; intros HF j p' m J N; cbn [fold_left length] in *.
  - exists p'. rewrite orb_false_r, Nat.add_0_r. auto.
  - rewrite (isin_clear c p' p); auto.
    + assert (W2 : within b (moved p (gc_ipos c))) by (inversion Hw; auto).
      destruct (IH ltac:(intros; eapply HF; eauto; right; auto) (j + 1)%nat (gadd A p' (gvec_of A (gc_ipos c))) true ltac:(lia)) as (q' & E & N' & Wq).
      { apply shift_error; auto; lia. }
      exists q'. split; [etransitivity; [exact E | rewrite orb_true_r; reflexivity]|]. split; auto. replace (j + S (length l))%nat with (j + 1 + length l)%nat by lia. auto.
    + intros; eapply HF; eauto; left; auto.
    + destruct N as (A1 & A2 & A3). pose proof (slack_mono j ltac:(lia)). repeat split; lra.
  - rewrite (isin_out c p' p); auto.
    + destruct (IH ltac:(intros; eapply HF; eauto; right; auto) (j + 1)%nat p' m ltac:(lia)) as (q' & E & N' & Wq).
      { destruct N as (A1 & A2 & A3). pose proof unit_pos. rewrite plus_INR. cbn [INR]. repeat split; lra. }
      exists q'. split; auto. split; auto. replace (j + S (length l))%nat with (j + 1 + length l)%nat by lia. auto.
    + intros; eapply HF; eauto; left; auto.
    + destruct N as (A1 & A2 & A3). pose proof (slack_mono j ltac:(lia)). repeat split; lra.
Qed.

(** Whatever the decisions, the computed position is near a periodic copy of the exact one. *)
Lemma moved_zero : forall p, moved p (0, 0, 0)%Z = p.
Proof. intros [x y z]. cbn. f_equal; ring. Qed.
Lemma moved_moved : forall p a a' a'' e e' e'', moved (moved p (a, a', a'')) (e, e', e'')%Z = moved p (a + e, a' + e', a'' + e'')%Z.
Proof. intros [x y z] a a' a'' e e' e''. cbn. rewrite !plus_IZR. f_equal; ring. Qed.
Lemma near_mono : forall d1 d2 p q, near d1 p q -> d1 <= d2 -> near d2 p q.
Proof. intros d1 d2 p q (A1 & A2 & A3) H. repeat split; lra. Qed.
Lemma loop_any : forall r, 0 <= r -> forall l, (forall c, In c l -> within r (moved (GV 0 0 0) (gc_ipos c))) ->
  forall j p' p m, (j + length l <= k)%nat -> near (slack j) p' p -> within (b - r * INR (length l)) p ->
  exists i t q', fold_left step l (m, p') = (t, q') /\ near (slack (j + length l)) q' (moved p i) /\ within b (moved p i).
Proof.
  intros r Hr0. induction l as [|c l IH]; intros HI j p' p m J N W; cbn [fold_left length] in *.
  - exists (0, 0, 0)%Z, m, p'. rewrite moved_zero, Nat.add_0_r. split; auto. split; auto.
    destruct W as (W1 & W2 & W3). cbn [INR] in *. rewrite Rmult_0_r, Rminus_0_r in *. repeat split; auto.
  - assert (L : INR (S (length l)) = INR (length l) + 1) by apply S_INR. rewrite L in W.
    replace (b - r * (INR (length l) + 1)) with (b - r * INR (length l) - r) in W by ring.
    assert (RL : 0 <= r * INR (length l)) by (apply Rmult_le_pos; auto using pos_INR).
    destruct (gisin A c p').
    + specialize (HI c (or_introl eq_refl)) as Hc. destruct (gc_ipos c) as [[a a'] a''] eqn:Ec.
      assert (W2 : within (b - r * INR (length l)) (moved p (a, a', a''))).
      { destruct Hc as (C1 & C2 & C3). destruct W as (W1 & W2 & W3). cbn [moved gx gy gz] in *. rewrite Rplus_0_l in *.
        repeat split; (eapply Rle_trans; [apply Rabs_triang|]); lra. }
      destruct (IH ltac:(intros; apply HI; right; auto) (j + 1)%nat (gadd A p' (gvec_of A (a, a', a''))) (moved p (a, a', a'')) true ltac:(lia)) as (i & t & q' & E & N' & Wq); auto.
      { apply shift_error; auto; [lia|]. destruct W2 as (W21 & W22 & W23). repeat split; lra. }
      destruct i as [[e e'] e'']. rewrite moved_moved in *. eexists _, t, q'. split; [exact E|]. split; [|exact Wq].
      replace (j + S (length l))%nat with (j + 1 + length l)%nat by lia. auto.
    + destruct (IH ltac:(intros; apply HI; right; auto) (j + 1)%nat p' p m ltac:(lia)) as (i & t & q' & E & N' & Wq); auto.
      { apply (near_mono _ _ _ _ N). pose proof unit_pos. rewrite plus_INR. cbn [INR]. lra. }
      { destruct W as (W1 & W2 & W3). repeat split; lra. }
      exists i, t, q'. split; auto. split; auto. replace (j + S (length l))%nat with (j + 1 + length l)%nat by lia. auto.
Qed.

(** The start: fractions of the box. *)
Lemma start_error : forall x bs, within b (GV (gx x / gx bs) (gy x / gy bs) (gz x / gz bs)) ->
  near (slack 0) (gdiv A x bs) (GV (gx x / gx bs) (gy x / gy bs) (gz x / gz bs)).
Proof.
  intros x bs (W1 & W2 & W3). cbn [gx gy gz] in *. pose proof unit_pos. unfold near, gdiv; cbn [gx gy gz adiv rounded INR].
  pose proof (rnd_le _ _ W1). pose proof (rnd_le _ _ W2). pose proof (rnd_le _ _ W3). repeat split; (eapply Rle_trans; [eassumption | lra]).
Qed.

(** The end: projection and size. *)
Lemma image_error : forall u r q' q, within n u -> Rabs r <= s -> within b q -> near top q' q ->
  Rabs (amul A (gdot A q' u) r - scalar q u * r) <= s * margin eps eta k n d b + eta.
Proof.
  intros u r q' q Hu Hs W N. pose proof (near_within _ _ _ N top_small W) as W'.
  pose proof (dot_error q' u (2 * b) n W' Hu ltac:(lra) Hn) as D.
  assert (C : forall v w, scalar v w = scalar w v) by (intros; unfold scalar; ring).
  assert (T0 : 0 <= top) by (pose proof (pos_INR k); pose proof unit_pos; apply Rmult_le_pos; lra).
  pose proof (scalar_near _ _ _ _ Hu N T0) as D2. rewrite (C u q'), (C u q) in D2.
  pose proof (scalar_within _ _ _ Hu W') as S1. rewrite (C u q') in S1.
  pose proof (abs_bound _ _ _ _ D S1) as X. pose proof (abs_step _ _ _ _ _ D D2) as Y.
  cbn [amul rounded]. pose proof (rnd_le _ _ (abs_prod _ _ _ _ X Hs)) as Z.
  assert (Q : Rabs (gdot A q' u * r - scalar q u * r) <= (10 * eps * (2 * b * n) + 8 * eta + 3 * n * top) * s).
  { replace (gdot A q' u * r - scalar q u * r) with ((gdot A q' u - scalar q u) * r) by ring. apply abs_prod; auto. }
  pose proof (abs_step _ _ _ _ _ Z Q) as V. eapply Rle_trans; [exact V|]. pose proof nb_pos as NB.
  assert (S0 : 0 <= s) by (pose proof (Rabs_pos r); lra).
  assert (E0 : eps * (10 * eps * (2 * b * n) + 8 * eta + 3 * (n * (2 * b))) + (10 * eps * (2 * b * n) + 8 * eta + 3 * n * top) <= margin eps eta k n d b).
  { unfold margin. assert (E1 : eps * (10 * eps * (2 * b * n)) <= 1 / 100 * (20 * (eps * (n * b)))).
    { replace (eps * (10 * eps * (2 * b * n))) with (eps * (20 * (eps * (n * b)))) by ring.
      apply Rmult_le_compat_r; [|lra]. assert (0 <= eps * (n * b)) by (apply Rmult_le_pos; lra). lra. }
    assert (E2 : eps * (8 * eta) <= 1 / 100 * (8 * eta)) by (apply Rmult_le_compat_r; lra).
    assert (E3 : 0 <= eps * (n * b)) by (apply Rmult_le_pos; lra). assert (E4 : 0 <= eps * d) by (apply Rmult_le_pos; lra).
    set (g := INR k) in *. nra. }
  apply (Rmult_le_compat_l s) in E0; auto. lra.
Qed.
End Rounding.

Lemma transform_walk : forall eps eta rnd c x n d s b q, rounds eps eta rnd -> fine eps eta (length (gu_cells c)) -> stored n d s c -> 0 <= d -> 1 <= b ->
  walk (margin eps eta (length (gu_cells c)) n d b) b (gu_cells c) (fraction c x) q true ->
  exists y, gtransform1 (rounded rnd) c x = Ok y /\ near (s * margin eps eta (length (gu_cells c)) n d b + eta) y (image c q).
Proof.
  intros eps eta rnd c x n d s b q Hr (He & Ht & K1 & K2) (Sf & S1 & S2 & S3 & S4) Hd Hb W.
  assert (Hn : 0 <= n) by (destruct S1 as (H & _); pose proof (Rabs_pos (gx (gu_n1 c))); lra).
  assert (W0 : within b (fraction c x)) by (inversion W; auto).
  pose proof (start_error eps eta rnd Hr He Ht b Hb _ _ W0) as N0.
  destruct (loop_walk eps eta rnd Hr He Ht n d b _ Hn Hb K1 K2 _ _ _ _ W Sf 0%nat _ false (le_n _) N0) as (q' & E & N & Wq).
  unfold gtransform1, gloop. eexists. split.
  - replace (fold_left _ _ _) with (true, q' : gvec (num (rounded rnd))) by (symmetry; exact E). reflexivity.
  - destruct S4 as (R1 & R2 & R3). rewrite Nat.add_0_l in N.
    repeat split; cbn [gx gy gz gmul gproject image];
      eapply (image_error eps eta rnd Hr He Ht n d s b _ Hn Hd Hb K1 K2); eauto.
Qed.
Lemma transform_walk_lost : forall eps eta rnd c x n d s b q, rounds eps eta rnd -> fine eps eta (length (gu_cells c)) -> stored n d s c -> 0 <= d -> 1 <= b ->
  walk (margin eps eta (length (gu_cells c)) n d b) b (gu_cells c) (fraction c x) q false ->
  gtransform1 (rounded rnd) c x = Err CuboidError.
Proof.
  intros eps eta rnd c x n d s b q Hr (He & Ht & K1 & K2) (Sf & S1 & S2 & S3 & S4) Hd Hb W.
  assert (Hn : 0 <= n) by (destruct S1 as (H & _); pose proof (Rabs_pos (gx (gu_n1 c))); lra).
  assert (W0 : within b (fraction c x)) by (inversion W; auto).
  pose proof (start_error eps eta rnd Hr He Ht b Hb _ _ W0) as N0.
  destruct (loop_walk eps eta rnd Hr He Ht n d b _ Hn Hb K1 K2 _ _ _ _ W Sf 0%nat _ false (le_n _) N0) as (q' & E & N & Wq).
  unfold gtransform1, gloop. replace (fold_left _ _ _) with (false, q' : gvec (num (rounded rnd))) by (symmetry; exact E). reflexivity.
Qed.
Lemma transform_any : forall eps eta rnd c x n d s r, rounds eps eta rnd -> fine eps eta (length (gu_cells c)) -> stored n d s c -> 0 <= d -> 0 <= r ->
  (forall k, In k (gu_cells c) -> within r (moved (GV 0 0 0) (gc_ipos k))) -> within 1 (fraction c x) ->
  gtransform1 (rounded rnd) c x = Err CuboidError \/
  exists y i, gtransform1 (rounded rnd) c x = Ok y /\ near (s * margin eps eta (length (gu_cells c)) n d (1 + r * INR (length (gu_cells c))) + eta) y (image c (moved (fraction c x) i)).
Proof.
  intros eps eta rnd c x n d s r Hr (He & Ht & K1 & K2) (Sf & S1 & S2 & S3 & S4) Hd Hr0 HI W0.
  assert (Hn : 0 <= n) by (destruct S1 as (H & _); pose proof (Rabs_pos (gx (gu_n1 c))); lra).
  set (b := 1 + r * INR (length (gu_cells c))). assert (RL : 0 <= r * INR (length (gu_cells c))) by (apply Rmult_le_pos; auto using pos_INR).
  assert (Hb : 1 <= b) by (unfold b; lra).
  assert (Wb : within b (fraction c x)) by (destruct W0 as (A1 & A2 & A3); repeat split; lra).
  pose proof (start_error eps eta rnd Hr He Ht b Hb _ _ Wb) as N0.
  destruct (loop_any eps eta rnd Hr He Ht b _ Hb K1 r Hr0 (gu_cells c) HI 0%nat _ (fraction c x) false (le_n _) N0) as (i & t & q' & E & N & Wq).
  { unfold b. replace (1 + r * INR (length (gu_cells c)) - r * INR (length (gu_cells c))) with 1 by ring. auto. }
  unfold gtransform1, gloop. destruct t.
  - right. eexists _, i. split.
    + replace (fold_left _ _ _) with (true, q' : gvec (num (rounded rnd))) by (symmetry; exact E). reflexivity.
    + destruct S4 as (R1 & R2 & R3). rewrite Nat.add_0_l in N.
      repeat split; cbn [gx gy gz gmul gproject image];
        eapply (image_error eps eta rnd Hr He Ht n d s b _ Hn Hd Hb K1 K2); eauto.
  - left. replace (fold_left _ _ _) with (false, q' : gvec (num (rounded rnd))) by (symmetry; exact E). reflexivity.
Qed.
