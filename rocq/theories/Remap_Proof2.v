(** Proofs about remapping: the cells found by Cuboid cover the box. *)
Require Import Reals Lra Lia ZArith List Bool String.
From Verif Require Import Base Vec3 Isometry_Model Isometry_Proof Sky_Model Cutsky_Model Box_Model Box_Proof3 Remap_Model Remap_Spec Remap_Proof.
Import ListNotations.
Open Scope R_scope.

Definition one : vec := V 1 1 1.
Definition open_cube (p : vec) : Prop := 0 < vx p < 1 /\ 0 < vy p < 1 /\ 0 < vz p < 1.

(** An affine function on the cube is a weighted mean of its values at the corners. *)
Definition corner_test (f : plane) (x y z : R) : R := plane_test f (V x y z).
Lemma affine_interp : forall f p, plane_test f p =
  (1 - vx p) * (1 - vy p) * (1 - vz p) * corner_test f 0 0 0 + (1 - vx p) * (1 - vy p) * vz p * corner_test f 0 0 1
  + (1 - vx p) * vy p * (1 - vz p) * corner_test f 0 1 0 + (1 - vx p) * vy p * vz p * corner_test f 0 1 1
  + vx p * (1 - vy p) * (1 - vz p) * corner_test f 1 0 0 + vx p * (1 - vy p) * vz p * corner_test f 1 0 1
  + vx p * vy p * (1 - vz p) * corner_test f 1 1 0 + vx p * vy p * vz p * corner_test f 1 1 1.
Proof. intros [[a b c] d] [x y z]. unfold corner_test, plane_test, rdot; cbn. ring. Qed.

Lemma tuc_cases : forall f, (test_unit_cube f = 1%Z /\ forall c, In c cube -> 0 <= plane_test f c) \/ test_unit_cube f = 0%Z \/
  (test_unit_cube f = (-1)%Z /\ (forall c, In c cube -> plane_test f c <= 0) /\ exists c, In c cube /\ plane_test f c < 0).
Proof.
  intros f. unfold test_unit_cube.
  destruct (existsb (fun x => Rltb 0 (plane_test f x)) cube) eqn:A; destruct (existsb (fun x => Rltb (plane_test f x) 0) cube) eqn:B; auto.
  - left. split; auto. intros c I. destruct (Rle_dec 0 (plane_test f c)); auto. exfalso.
    assert (X : existsb (fun x => Rltb (plane_test f x) 0) cube = true) by (apply existsb_exists; exists c; split; auto; apply Rltb_true; lra). congruence.
  - right; right. split; auto. split.
    + intros c I. destruct (Rle_dec (plane_test f c) 0); auto. exfalso.
      assert (X : existsb (fun x => Rltb 0 (plane_test f x)) cube = true) by (apply existsb_exists; exists c; split; auto; apply Rltb_true; lra). congruence.
    + apply existsb_exists in B. destruct B as (c & I & L). exists c. split; auto. apply Rltb_true; auto.
Qed.

Lemma in_cube : forall x y z, (x = 0 \/ x = 1) -> (y = 0 \/ y = 1) -> (z = 0 \/ z = 1) -> In (V x y z) cube.
Proof. intros x y z [->| ->] [->| ->] [->| ->]; unfold cube; cbn; tauto. Qed.

Ltac corner f := let a := fresh in
  repeat match goal with |- context [corner_test f ?x ?y ?z] => generalize (corner_test f x y z); intros a end.

Lemma above_nonneg : forall f p, (forall c, In c cube -> 0 <= plane_test f c) -> in_box one p -> 0 <= plane_test f p.
Proof.
  intros f p H B. rewrite affine_interp. unfold in_box, one in B; cbn in B. destruct p as [x y z]; cbn [vx vy vz] in *.
  assert (C : forall a b c, (a = 0 \/ a = 1) -> (b = 0 \/ b = 1) -> (c = 0 \/ c = 1) -> 0 <= corner_test f a b c).
  { intros. apply H, in_cube; auto. }
  repeat apply Rplus_le_le_0_compat; repeat apply Rmult_le_pos; try lra; apply C; auto.
Qed.

Lemma below_neg : forall f p, (forall c, In c cube -> plane_test f c <= 0) -> (exists c, In c cube /\ plane_test f c < 0) ->
  open_cube p -> plane_test f p < 0.
Proof.
  intros f p H (c & I & L) B. rewrite affine_interp. unfold open_cube in B. destruct p as [x y z]; cbn [vx vy vz] in *.
  assert (C : forall a b c, (a = 0 \/ a = 1) -> (b = 0 \/ b = 1) -> (c = 0 \/ c = 1) -> corner_test f a b c <= 0).
  { intros. apply H, in_cube; auto. }
  assert (W : forall a b c, 0 < a -> 0 < b -> 0 < c -> 0 < a * b * c) by (intros; repeat apply Rmult_lt_0_compat; auto).
  pose proof (C 0 0 0 ltac:(auto) ltac:(auto) ltac:(auto)) as C0. pose proof (C 0 0 1 ltac:(auto) ltac:(auto) ltac:(auto)) as C1.
  pose proof (C 0 1 0 ltac:(auto) ltac:(auto) ltac:(auto)) as C2. pose proof (C 0 1 1 ltac:(auto) ltac:(auto) ltac:(auto)) as C3.
  pose proof (C 1 0 0 ltac:(auto) ltac:(auto) ltac:(auto)) as C4. pose proof (C 1 0 1 ltac:(auto) ltac:(auto) ltac:(auto)) as C5.
  pose proof (C 1 1 0 ltac:(auto) ltac:(auto) ltac:(auto)) as C6. pose proof (C 1 1 1 ltac:(auto) ltac:(auto) ltac:(auto)) as C7.
  assert (D : corner_test f 0 0 0 < 0 \/ corner_test f 0 0 1 < 0 \/ corner_test f 0 1 0 < 0 \/ corner_test f 0 1 1 < 0 \/
    corner_test f 1 0 0 < 0 \/ corner_test f 1 0 1 < 0 \/ corner_test f 1 1 0 < 0 \/ corner_test f 1 1 1 < 0).
  { unfold cube in I; cbn in I. unfold corner_test. destruct I as [<-|[<-|[<-|[<-|[<-|[<-|[<-|[<-|[]]]]]]]]]; tauto. }
  clear C H.
  pose proof (W (1 - x) (1 - y) (1 - z) ltac:(lra) ltac:(lra) ltac:(lra)) as W0. pose proof (W (1 - x) (1 - y) z ltac:(lra) ltac:(lra) ltac:(lra)) as W1.
  pose proof (W (1 - x) y (1 - z) ltac:(lra) ltac:(lra) ltac:(lra)) as W2. pose proof (W (1 - x) y z ltac:(lra) ltac:(lra) ltac:(lra)) as W3.
  pose proof (W x (1 - y) (1 - z) ltac:(lra) ltac:(lra) ltac:(lra)) as W4. pose proof (W x (1 - y) z ltac:(lra) ltac:(lra) ltac:(lra)) as W5.
  pose proof (W x y (1 - z) ltac:(lra) ltac:(lra) ltac:(lra)) as W6. pose proof (W x y z ltac:(lra) ltac:(lra) ltac:(lra)) as W7.
  assert (NP : forall w t, 0 < w -> t <= 0 -> w * t <= 0) by (intros; nra).
  assert (NN : forall w t, 0 < w -> t < 0 -> w * t < 0) by (intros; nra).
  pose proof (NP _ _ W0 C0). pose proof (NP _ _ W1 C1). pose proof (NP _ _ W2 C2). pose proof (NP _ _ W3 C3).
  pose proof (NP _ _ W4 C4). pose proof (NP _ _ W5 C5). pose proof (NP _ _ W6 C6). pose proof (NP _ _ W7 C7).
  destruct D as [D|[D|[D|[D|[D|[D|[D|D]]]]]]];
  [pose proof (NN _ _ W0 D)|pose proof (NN _ _ W1 D)|pose proof (NN _ _ W2 D)|pose proof (NN _ _ W3 D)|
   pose proof (NN _ _ W4 D)|pose proof (NN _ _ W5 D)|pose proof (NN _ _ W6 D)|pose proof (NN _ _ W7 D)]; lra.
Qed.

Lemma keep_some : forall l k, keep_faces l = Some k ->
  (forall f, In f k -> In f l) /\ forall f, In f l -> In f k \/ forall c, In c cube -> 0 <= plane_test f c.
Proof.
  induction l as [|f l IH]; intros k H; cbn in H.
  - injection H as <-. split; intros ? [].
  - destruct (tuc_cases f) as [[T C]|[T|(T & _)]]; rewrite T in H; cbn in H; try discriminate;
    destruct (keep_faces l) as [k'|] eqn:E; try discriminate; injection H as <-; destruct (IH _ eq_refl) as [A B]; split.
    + intros g I. right; auto. + intros g [<-|I]; auto.
    + intros g [<-|I]; cbn; auto. + intros g [<-|I]; cbn; auto. destruct (B g I); auto.
Qed.
Lemma keep_none : forall l, keep_faces l = None -> exists f, In f l /\ forall p, open_cube p -> plane_test f p < 0.
Proof.
  induction l as [|f l IH]; intros H; cbn in H; [discriminate|].
  destruct (tuc_cases f) as [[T C]|[T|(T & C & N)]]; rewrite T in H; cbn in H.
  1-2: destruct (keep_faces l) as [k'|] eqn:E; [discriminate|]; destruct (IH eq_refl) as (g & I & G); exists g; cbn; auto.
  exists f. split; [cbn; auto|]. intros p P. apply below_neg; auto.
Qed.

(** Ranges. *)
Lemma arange_In : forall lo hi z, In z (arange lo hi) <-> (lo <= z < hi)%Z.
Proof.
  intros lo hi z. unfold arange. rewrite in_map_iff. split.
  - intros (k & <- & I). apply in_seq in I. lia.
  - intros H. exists (Z.to_nat (z - lo)). split; [lia|]. apply in_seq. lia.
Qed.
Lemma iproduct_In : forall a b c x y z, In (x, y, z) (iproduct a b c) <-> In x a /\ In y b /\ In z c.
Proof.
  intros a b c x y z. unfold iproduct. rewrite in_flat_map. split.
  - intros (x' & I & H). apply in_flat_map in H. destruct H as (y' & J & H). apply in_map_iff in H.
    destruct H as (z' & E & K). injection E as -> -> ->. auto.
  - intros (I & J & K). exists x. split; auto. apply in_flat_map. exists y. split; auto. apply in_map; auto.
Qed.
Lemma fold_min_le : forall l a, fold_left Rmin l a <= a /\ forall x, In x l -> fold_left Rmin l a <= x.
Proof.
  induction l as [|b l IH]; intros a; cbn; [split; [lra|intros ? []]|].
  destruct (IH (Rmin a b)) as [A B]. pose proof (Rmin_l a b); pose proof (Rmin_r a b). split; [lra|].
  intros x [<-|I]; [lra|auto].
Qed.
Lemma fold_max_ge : forall l a, a <= fold_left Rmax l a /\ forall x, In x l -> x <= fold_left Rmax l a.
Proof.
  induction l as [|b l IH]; intros a; cbn; [split; [lra|intros ? []]|].
  destruct (IH (Rmax a b)) as [A B]. pose proof (Rmax_l a b); pose proof (Rmax_r a b). split; [lra|].
  intros x [<-|I]; [lra|auto].
Qed.
Lemma list_min_le : forall l x, In x l -> list_min l <= x.
Proof. intros [|a l] x I; [destruct I|]. cbn. destruct (fold_min_le l a) as [A B]. destruct I as [<-|I]; auto. Qed.
Lemma list_max_ge : forall l x, In x l -> x <= list_max l.
Proof. intros [|a l] x I; [destruct I|]. cbn. destruct (fold_max_ge l a) as [A B]. destruct I as [<-|I]; auto. Qed.
Lemma fold_min_in : forall l a, In (fold_left Rmin l a) (a :: l).
Proof.
  induction l as [|b l IH]; intros a; cbn; auto. destruct (IH (Rmin a b)) as [E|I]; [|auto].
  rewrite <- E. unfold Rmin. destruct (Rle_dec a b); auto.
Qed.
Lemma fold_max_in : forall l a, In (fold_left Rmax l a) (a :: l).
Proof.
  induction l as [|b l IH]; intros a; cbn; auto. destruct (IH (Rmax a b)) as [E|I]; [|auto].
  rewrite <- E. unfold Rmax. destruct (Rle_dec a b); auto.
Qed.
Lemma list_min_ge : forall l b, l <> [] -> (forall x, In x l -> b <= x) -> b <= list_min l.
Proof. intros [|a l] b N H; [congruence|]. cbn. apply H, fold_min_in. Qed.
Lemma list_max_le : forall l b, l <> [] -> (forall x, In x l -> x <= b) -> list_max l <= b.
Proof. intros [|a l] b N H; [congruence|]. cbn. apply H, fold_max_in. Qed.

(** A point of the cuboid lies within the bounding box of its vertices. *)
Definition linear (f : vec -> R) : Prop := forall k a b, f (vadd a b) = f a + f b /\ f (vscale k a) = k * f a.
Lemma linear_x : linear vx. Proof. split; cbn; auto. Qed.
Lemma linear_y : linear vy. Proof. split; cbn; auto. Qed.
Lemma linear_z : linear vz. Proof. split; cbn; auto. Qed.
Lemma lin_add : forall f a b, linear f -> f (vadd a b) = f a + f b. Proof. intros f a b L; apply (L 0). Qed.
Lemma lin_scale : forall f k a, linear f -> f (vscale k a) = k * f a. Proof. intros f k a L; apply (L k a a). Qed.
Lemma lin_zero : forall f, linear f -> f vzero = 0.
Proof. intros f L. pose proof (lin_scale f 0 vzero L) as E. rewrite vscale_zero in E. lra. Qed.

Lemma hull_bounds : forall f e1 e2 e3 t1 t2 t3, linear f -> 0 <= t1 <= 1 -> 0 <= t2 <= 1 -> 0 <= t3 <= 1 ->
  list_min (map f (vertices e1 e2 e3)) <= t1 * f e1 + t2 * f e2 + t3 * f e3 <= list_max (map f (vertices e1 e2 e3)).
Proof.
  intros f e1 e2 e3 t1 t2 t3 L H1 H2 H3.
  assert (Vs : forall b1 b2 b3 : bool, In ((if b1 then f e1 else 0) + (if b2 then f e2 else 0) + (if b3 then f e3 else 0)) (map f (vertices e1 e2 e3))).
  { intros b1 b2 b3. unfold vertices; cbn [map]. rewrite !lin_add, lin_zero by auto.
    destruct b1, b2, b3; cbn [In]; rewrite ?Rplus_0_l, ?Rplus_0_r; tauto. }
  assert (M : forall t a, 0 <= t <= 1 -> (if Rlt_dec a 0 then a else 0) <= t * a <= (if Rlt_dec a 0 then 0 else a)).
  { intros t a T. destruct (Rlt_dec a 0); split; nra. }
  pose proof (M t1 (f e1) H1); pose proof (M t2 (f e2) H2); pose proof (M t3 (f e3) H3).
  split.
  - apply Rle_trans with ((if Rlt_dec (f e1) 0 then f e1 else 0) + (if Rlt_dec (f e2) 0 then f e2 else 0) + (if Rlt_dec (f e3) 0 then f e3 else 0)); [|lra].
    apply list_min_le. pose proof (Vs (if Rlt_dec (f e1) 0 then true else false) (if Rlt_dec (f e2) 0 then true else false) (if Rlt_dec (f e3) 0 then true else false)) as X.
    destruct (Rlt_dec (f e1) 0), (Rlt_dec (f e2) 0), (Rlt_dec (f e3) 0); exact X.
  - apply Rle_trans with ((if Rlt_dec (f e1) 0 then 0 else f e1) + (if Rlt_dec (f e2) 0 then 0 else f e2) + (if Rlt_dec (f e3) 0 then 0 else f e3)); [lra|].
    apply list_max_ge. pose proof (Vs (if Rlt_dec (f e1) 0 then false else true) (if Rlt_dec (f e2) 0 then false else true) (if Rlt_dec (f e3) 0 then false else true)) as X.
    destruct (Rlt_dec (f e1) 0), (Rlt_dec (f e2) 0), (Rlt_dec (f e3) 0); exact X.
Qed.

(** A unit vector whose 1-norm is at most 1 is along an axis. *)
Lemma axis_like : forall n e, vdot n n = 1 -> 0 < e ->
  Rabs (vx n) + Rabs (vy n) + Rabs (vz n) <= e -> 1 <= e /\ (e = 1 -> vx n * vy n = 0 /\ vx n * vz n = 0 /\ vy n * vz n = 0).
Proof.
  intros [x y z] e N P W. unfold vdot in N; cbn in *.
  pose proof (Rabs_pos x); pose proof (Rabs_pos y); pose proof (Rabs_pos z).
  assert (X : x * x = Rabs x * Rabs x) by (unfold Rabs; destruct (Rcase_abs x); ring).
  assert (Y : y * y = Rabs y * Rabs y) by (unfold Rabs; destruct (Rcase_abs y); ring).
  assert (Z : z * z = Rabs z * Rabs z) by (unfold Rabs; destruct (Rcase_abs z); ring).
  set (a := Rabs x) in *; set (b := Rabs y) in *; set (c := Rabs z) in *.
  assert (S : (a + b + c) * (a + b + c) = 1 + 2 * (a * b + a * c + b * c)) by (rewrite X, Y, Z in N; lra).
  assert (AB : 0 <= a * b) by (apply Rmult_le_pos; auto). assert (AC : 0 <= a * c) by (apply Rmult_le_pos; auto).
  assert (BC : 0 <= b * c) by (apply Rmult_le_pos; auto).
  assert (G : 1 <= a + b + c) by nra. split; [lra|]. intros ->. assert (a + b + c = 1) by lra.
  assert (Z0 : a * b + a * c + b * c = 0) by nra.
  assert (K : forall s t, Rabs s * Rabs t = 0 -> s * t = 0).
  { intros s t E. apply Rmult_integral in E. destruct E as [E|E]; [|]; (destruct (Req_dec s 0) as [->|N0]; [ring|]; destruct (Req_dec t 0) as [->|N1]; [ring|]);
    [apply Rabs_no_R0 in N0|apply Rabs_no_R0 in N1]; contradiction. }
  repeat split; apply K; fold a b c; lra.
Qed.

Lemma unit_cube_root : forall x y z, x * x + y * y + z * z = 1 -> x * y = 0 -> x * z = 0 -> x = 0 \/ x = 1 \/ x = -1.
Proof.
  intros x y z S A B. destruct (Req_dec x 0) as [|N]; auto. right.
  assert (Y : y = 0) by (apply Rmult_integral in A; tauto). assert (Z : z = 0) by (apply Rmult_integral in B; tauto). subst.
  assert (X : (x - 1) * (x + 1) = 0) by lra. apply Rmult_integral in X. destruct X; [left|right]; lra.
Qed.

Lemma width : forall n w s, (forall c, In c cube -> 0 <= vdot n (vadd c w) <= s) -> Rabs (vx n) + Rabs (vy n) + Rabs (vz n) <= s.
Proof.
  intros [x y z] w s H. cbn.
  set (t := fun a : R => if Rlt_dec a 0 then 0 else 1).
  assert (T : forall a, (t a = 0 \/ t a = 1) /\ a * t a - a * (1 - t a) = Rabs a).
  { intros a. unfold t, Rabs. destruct (Rlt_dec a 0), (Rcase_abs a); try lra; split; auto; ring. }
  destruct (T x) as [X X'], (T y) as [Y Y'], (T z) as [Z Z'].
  pose proof (H (V (t x) (t y) (t z)) (in_cube _ _ _ X Y Z)) as H1.
  pose proof (H (V (1 - t x) (1 - t y) (1 - t z)) ltac:(apply in_cube; lra)) as H0.
  unfold vdot, vadd in H0, H1; cbn in H0, H1. lra.
Qed.

Lemma three_ones : forall a b c, 1 <= a -> 1 <= b -> 1 <= c -> a * b * c = 1 -> a = 1 /\ b = 1 /\ c = 1.
Proof.
  intros a b c A B C E. assert (AB : 1 <= a * b) by nra. assert (AB1 : a * b <= 1) by nra. assert (X : a * b = 1) by lra.
  assert (a <= 1) by nra. assert (b <= 1) by nra. assert (c = 1) by (rewrite X in E; lra). lra.
Qed.

Section Cells.
Variables u1 u2 u3 e1 e2 e3 : vec.
Hypothesis O : ortho u1 u2 u3 e1 e2 e3.
Hypothesis D : mdet (M u1 u2 u3) = 1.

Let P1 : 0 < vnorm e1 := vnorm_pos' _ (o_11 _ _ _ _ _ _ O).
Let P2 : 0 < vnorm e2 := vnorm_pos' _ (o_22 _ _ _ _ _ _ O).
Let P3 : 0 < vnorm e3 := vnorm_pos' _ (o_33 _ _ _ _ _ _ O).

Lemma dot_nrm : forall e p, 0 < vnorm e -> vdot p (nrm e) = vdot p e / vnorm e.
Proof. intros e p P. unfold nrm. rewrite vdot_scale_r. field. lra. Qed.
Lemma dot_nrm_self : forall e, 0 < vnorm e -> vdot e (nrm e) = vnorm e.
Proof. intros e P. rewrite dot_nrm, <- vnorm_sqr by auto. field. lra. Qed.

Lemma side_lo : forall e p, 0 < vnorm e -> (0 <= vdot (nrm e) p <-> 0 <= vdot p e).
Proof.
  intros e p P. rewrite vdot_comm, dot_nrm by auto. split; intros H.
  - replace (vdot p e) with (vdot p e / vnorm e * vnorm e) by (field; lra). nra.
  - apply Rmult_le_pos; [auto|]. left; apply Rinv_0_lt_compat; auto.
Qed.
Lemma side_hi : forall e p, 0 < vnorm e -> (0 <= vnorm e - vdot (nrm e) p <-> vdot p e <= vdot e e).
Proof.
  intros e p P. rewrite vdot_comm, dot_nrm by auto. rewrite <- vnorm_sqr.
  replace (vnorm e - vdot p e / vnorm e) with ((vnorm e * vnorm e - vdot p e) * / vnorm e) by (field; lra).
  pose proof (Rinv_0_lt_compat _ P) as Q. split; intros H; [|apply Rmult_le_pos; lra].
  apply Rmult_le_reg_r with (/ vnorm e); auto. lra.
Qed.

Lemma lo_test : forall n i p, plane_test (plane_new (vadd vzero (vopp (vec_of i))) n) p = vdot n (vadd p (real i)).
Proof. intros n i p. unfold plane_test, plane_new; cbn [pl_n pl_d]. rewrite !rdot_eq, real_vec_of. unfold vdot, vadd, vopp, vzero; cbn. ring. Qed.
Lemma hi_test : forall e i p, 0 < vnorm e -> plane_test (plane_new (vadd (vadd vzero e) (vopp (vec_of i))) (vopp (nrm e))) p = vnorm e - vdot (nrm e) (vadd p (real i)).
Proof.
  intros e i p P. replace (vnorm e) with (vdot e (nrm e)) by (apply dot_nrm_self; auto). unfold plane_test, plane_new; cbn [pl_n pl_d]. rewrite !rdot_eq, real_vec_of.
  generalize (nrm e); intros n. unfold vdot, vadd, vopp, vzero; cbn. ring.
Qed.

Definition faces (i : ipos) := tile_faces e1 e2 e3 (nrm e1) (nrm e2) (nrm e3) i.
Lemma faces_closed : forall i p, (forall f, In f (faces i) -> 0 <= plane_test f p) <-> closed e1 e2 e3 (vadd p (real i)).
Proof.
  intros i p. unfold faces, tile_faces. cbn [nth vertices In]. unfold closed. split.
  - intros H.
    pose proof (H _ (or_introl eq_refl)) as A1. pose proof (H _ (or_intror (or_introl eq_refl))) as A2.
    pose proof (H _ (or_intror (or_intror (or_introl eq_refl)))) as A3. pose proof (H _ (or_intror (or_intror (or_intror (or_introl eq_refl))))) as A4.
    pose proof (H _ (or_intror (or_intror (or_intror (or_intror (or_introl eq_refl)))))) as A5.
    pose proof (H _ (or_intror (or_intror (or_intror (or_intror (or_intror (or_introl eq_refl))))))) as A6.
    rewrite lo_test in A1, A3, A5. rewrite hi_test in A2, A4, A6 by auto.
    apply (proj1 (side_lo _ _ P1)) in A1. apply (proj1 (side_hi _ _ P1)) in A2. apply (proj1 (side_lo _ _ P2)) in A3.
    apply (proj1 (side_hi _ _ P2)) in A4. apply (proj1 (side_lo _ _ P3)) in A5. apply (proj1 (side_hi _ _ P3)) in A6. tauto.
  - intros (B1 & B2 & B3) f I. destruct I as [<-|[<-|[<-|[<-|[<-|[<-|[]]]]]]];
    rewrite ?lo_test, ?hi_test by auto; [apply (side_lo e1)|apply (side_hi e1)|apply (side_lo e2)|apply (side_hi e2)|apply (side_lo e3)|apply (side_hi e3)]; tauto.
Qed.

Definition cells0 : list cell :=
  let v := vertices e1 e2 e3 in
  flat_map (tile_cell e1 e2 e3 (nrm e1) (nrm e2) (nrm e3)) (iproduct (irange vx v) (irange vy v) (irange vz v)).
Lemma cells0_In : forall c, In c cells0 <-> exists i, In i (iproduct (irange vx (vertices e1 e2 e3)) (irange vy (vertices e1 e2 e3)) (irange vz (vertices e1 e2 e3))) /\
  c_ipos c = i /\ keep_faces (faces i) = Some (c_faces c) /\ c_faces c <> [].
Proof.
  intros c. unfold cells0. rewrite in_flat_map. unfold tile_cell. fold faces. split.
  - intros (i & I & H). exists i. split; auto. fold (faces i) in H. destruct (keep_faces (faces i)) as [[|f k]|]; try (destruct H; fail).
    destruct H as [<-|[]]. cbn. split; auto. split; auto. discriminate.
  - intros (i & I & <- & K & N). exists (c_ipos c). split; auto. fold (faces (c_ipos c)). rewrite K.
    destruct c as [i' [|f k]]; cbn in *; [congruence|auto].
Qed.

Lemma cell_sound : forall i k p, keep_faces (faces i) = Some k -> in_box one p -> forallb (fun f => Rleb 0 (plane_test f p)) k = true ->
  closed e1 e2 e3 (vadd p (real i)).
Proof.
  intros i k p K B H. apply faces_closed. intros f I. destruct (keep_some _ _ K) as [_ S]. destruct (S f I) as [J|C].
  - rewrite forallb_forall in H. apply Rleb_true, H; auto.
  - apply above_nonneg; auto.
Qed.

Lemma cell_complete : forall i p, open_cube p -> closed e1 e2 e3 (vadd p (real i)) ->
  exists k, keep_faces (faces i) = Some k /\ forallb (fun f => Rleb 0 (plane_test f p)) k = true.
Proof.
  intros i p B H. destruct (keep_faces (faces i)) as [k|] eqn:E.
  - exists k. split; auto. apply forallb_forall. intros f I. apply Rleb_true. destruct (keep_some _ _ E) as [S _].
    apply (proj2 (faces_closed i p) H). auto.
  - destruct (keep_none _ E) as (f & I & N). pose proof (proj2 (faces_closed i p) H f I). pose proof (N p B). lra.
Qed.

Lemma closed_coords : forall q, closed e1 e2 e3 q -> exists t1 t2 t3, 0 <= t1 <= 1 /\ 0 <= t2 <= 1 /\ 0 <= t3 <= 1 /\
  q = vadd (vadd (vscale t1 e1) (vscale t2 e2)) (vscale t3 e3).
Proof.
  intros q (B1 & B2 & B3). exists (vdot q e1 / vdot e1 e1), (vdot q e2 / vdot e2 e2), (vdot q e3 / vdot e3 e3).
  assert (F : forall a b, 0 <= a <= b -> 0 < b -> 0 <= a / b <= 1).
  { intros a b A P. split. - apply Rmult_le_pos; [lra|left; apply Rinv_0_lt_compat; auto].
    - apply Rmult_le_reg_r with b; auto. replace (a / b * b) with a by (field; lra). lra. }
  split; [apply F; [auto|apply (o_11 _ _ _ _ _ _ O)]|]. split; [apply F; [auto|apply (o_22 _ _ _ _ _ _ O)]|].
  split; [apply F; [auto|apply (o_33 _ _ _ _ _ _ O)]|].
  rewrite <- (expand _ _ _ q (nrm_rotation _ _ _ _ _ _ O D)) at 1. rewrite !dot_nrm by auto. unfold nrm. rewrite !vscale_scale.
  rewrite <- !vnorm_sqr. f_equal; [f_equal|]; f_equal; field; lra.
Qed.

Lemma irange_In : forall f q i x, linear f -> closed e1 e2 e3 q -> f q = x + IZR i -> 0 < x < 1 -> In i (irange f (vertices e1 e2 e3)).
Proof.
  intros f q i x L C E X. destruct (closed_coords q C) as (t1 & t2 & t3 & T1 & T2 & T3 & Q).
  assert (FQ : f q = t1 * f e1 + t2 * f e2 + t3 * f e3) by (rewrite Q, !lin_add, !lin_scale by auto; auto).
  pose proof (hull_bounds f e1 e2 e3 t1 t2 t3 L T1 T2 T3) as [B1 B2]. rewrite <- FQ in B1, B2.
  unfold irange. apply arange_In. pose proof (Rfloor_spec (list_min (map f (vertices e1 e2 e3)))) as F.
  pose proof (Rceil_spec (list_max (map f (vertices e1 e2 e3)))) as G. split.
  - assert (X1 : IZR (Rfloor (list_min (map f (vertices e1 e2 e3)))) < IZR i + 1) by lra. rewrite <- plus_IZR in X1. apply lt_IZR in X1. lia.
  - apply lt_IZR. lra.
Qed.

Lemma interior_tile : forall i p, open_cube p -> closed e1 e2 e3 (vadd p (real i)) ->
  In i (iproduct (irange vx (vertices e1 e2 e3)) (irange vy (vertices e1 e2 e3)) (irange vz (vertices e1 e2 e3))).
Proof.
  intros [[a b] c] p B C. unfold open_cube in B. apply iproduct_In.
  split; [|split]; [eapply (irange_In vx _ _ (vx p))|eapply (irange_In vy _ _ (vy p))|eapply (irange_In vz _ _ (vz p))];
    eauto using linear_x, linear_y, linear_z; try tauto; unfold real, vadd; cbn; auto.
Qed.

(** A tile contained in the cuboid: then the cuboid is that tile, and there is no cell. *)
Definition plus_or_minus (s : R) (i : Z) : Prop := (s = 1 /\ i = 0%Z) \/ (s = -1 /\ i = (-1)%Z).
Lemma coord_range : forall f i, linear f -> (exists s, plus_or_minus s i /\
    ((f e1 = s /\ f e2 = 0 /\ f e3 = 0) \/ (f e1 = 0 /\ f e2 = s /\ f e3 = 0) \/ (f e1 = 0 /\ f e2 = 0 /\ f e3 = s))) ->
  forall z, In z (irange f (vertices e1 e2 e3)) -> z = i.
Proof.
  intros f i L (s & Si & C) z I. unfold irange in I. apply arange_In in I.
  assert (B : forall x, In x (map f (vertices e1 e2 e3)) -> IZR i <= x <= IZR (i + 1)).
  { intros x Ix. unfold vertices in Ix; cbn [map] in Ix. rewrite !lin_add, lin_zero in Ix by auto.
    rewrite plus_IZR. destruct Si as [[-> ->]|[-> ->]]; destruct C as [(A1 & A2 & A3)|[(A1 & A2 & A3)|(A1 & A2 & A3)]]; rewrite A1, A2, A3 in Ix;
    repeat (destruct Ix as [<-|Ix]; [lra|]); destruct Ix. }
  assert (M : IZR i <= list_min (map f (vertices e1 e2 e3))).
  { apply list_min_ge; [discriminate|]. intros x Ix. apply B in Ix. tauto. }
  assert (X : list_max (map f (vertices e1 e2 e3)) <= IZR (i + 1)).
  { apply list_max_le; [discriminate|]. intros x Ix. apply B in Ix. tauto. }
  apply Rfloor_mono in M. rewrite Rfloor_IZR in M.
  assert (Y : (Rceil (list_max (map f (vertices e1 e2 e3))) <= i + 1)%Z).
  { unfold Rceil. apply Ropp_le_contravar in X. apply Rfloor_mono in X. rewrite <- opp_IZR, Rfloor_IZR in X. lia. }
  lia.
Qed.

Lemma full_tile_closed : forall i, keep_faces (faces i) = Some [] -> forall c, In c cube -> closed e1 e2 e3 (vadd c (real i)).
Proof.
  intros i K c I. apply faces_closed. intros f J. destruct (keep_some _ _ K) as [_ S]. destruct (S f J) as [[]|C]; auto.
Qed.

(** Then the edges are signed axes, given by the tile. *)
Lemma full_tile_axes : forall i, keep_faces (faces i) = Some [] ->
  vdot e1 e1 = 1 /\ vdot e2 e2 = 1 /\ vdot e3 e3 = 1 /\
  forall e, e = e1 \/ e = e2 \/ e = e3 -> vx e * vy e = 0 /\ vx e * vz e = 0 /\ vy e * vz e = 0.
Proof.
  intros i K. pose proof (full_tile_closed i K) as C.
  assert (W : forall e, 0 < vnorm e -> (forall c, In c cube -> 0 <= vdot (vadd c (real i)) e <= vdot e e) ->
    1 <= vnorm e /\ (vnorm e = 1 -> vx (nrm e) * vy (nrm e) = 0 /\ vx (nrm e) * vz (nrm e) = 0 /\ vy (nrm e) * vz (nrm e) = 0)).
  { intros e P B. apply axis_like; auto.
    - unfold nrm. rewrite vdot_scale_l, vdot_scale_r, <- vnorm_sqr. field. lra.
    - apply (width _ (real i)). intros c I. destruct (B c I) as [B0 B1].
      pose proof (proj2 (side_lo e _ P) B0). pose proof (proj2 (side_hi e _ P) B1). lra. }
  destruct (W e1 P1) as [G1 A1]; [intros c I; apply (C c I)|]. destruct (W e2 P2) as [G2 A2]; [intros c I; apply (C c I)|].
  destruct (W e3 P3) as [G3 A3]; [intros c I; apply (C c I)|].
  destruct (three_ones _ _ _ G1 G2 G3 (volume_one _ _ _ _ _ _ O D)) as (N1 & N2 & N3).
  assert (S : forall e, vnorm e = 1 -> nrm e = e). { intros e E. unfold nrm. rewrite E, Rinv_1, vscale_1. auto. }
  rewrite (S _ N1) in A1. rewrite (S _ N2) in A2. rewrite (S _ N3) in A3.
  rewrite <- !vnorm_sqr, N1, N2, N3. split; [ring|]. split; [ring|]. split; [ring|].
  intros e [->|[->| ->]]; auto.
Qed.

Lemma full_tile_only : forall i, keep_faces (faces i) = Some [] -> cells0 = [].
Proof.
  intros i K. pose proof (full_tile_closed i K) as C. destruct (full_tile_axes i K) as (S1 & S2 & S3 & AX).
  assert (N : forall e, vdot e e = 1 -> nrm e = e).
  { intros e E. unfold nrm. assert (X : vnorm e = 1) by (unfold vnorm; rewrite E; apply sqrt_1). rewrite X, Rinv_1, vscale_1. auto. }
  pose proof (is_rotation_trans _ (nrm_rotation _ _ _ _ _ _ O D)) as T. rewrite (N _ S1), (N _ S2), (N _ S3) in T.
  assert (Cols : (vx e1 * vx e1 + vx e2 * vx e2 + vx e3 * vx e3 = 1) /\ (vy e1 * vy e1 + vy e2 * vy e2 + vy e3 * vy e3 = 1) /\ (vz e1 * vz e1 + vz e2 * vz e2 + vz e3 * vz e3 = 1)).
  { destruct e1, e2, e3. unfold mmul, mtrans, col0, col1, col2, mid, vdot in T; cbn in T. injection T; intros. cbn. repeat split; lra. }
  destruct Cols as (Cx & Cy & Cz).
  pose proof (AX e1 ltac:(auto)) as (X1 & Y1 & Z1). pose proof (AX e2 ltac:(auto)) as (X2 & Y2 & Z2). pose proof (AX e3 ltac:(auto)) as (X3 & Y3 & Z3).
  (* signs and tile labels *)
  assert (SG : forall e (f : vec -> R) a z, (forall c, In c cube -> 0 <= vdot (vadd c (real i)) e <= 1) ->
     (a = vx /\ z = fst (fst i) /\ vy e = 0 /\ vz e = 0) \/ (a = vy /\ z = snd (fst i) /\ vx e = 0 /\ vz e = 0) \/ (a = vz /\ z = snd i /\ vx e = 0 /\ vy e = 0) ->
     a e = 1 \/ a e = -1 -> plus_or_minus (a e) z).
  { intros e _ a z B Hc Hs. destruct i as [[i0 i1] i2]; cbn [fst snd] in Hc.
    assert (R : exists t0 t1 : vec, In t0 cube /\ In t1 cube /\ vdot (vadd t0 (real (i0, i1, i2))) e = a e * IZR z /\ vdot (vadd t1 (real (i0, i1, i2))) e = a e * (1 + IZR z)).
    { exists (V 0 0 0), (match (if Req_EM_T (vx e) 0 then (if Req_EM_T (vy e) 0 then V 0 0 1 else V 0 1 0) else V 1 0 0) with v => v end).
      destruct Hc as [(-> & -> & E1 & E2)|[(-> & -> & E1 & E2)|(-> & -> & E1 & E2)]]; rewrite ?E1, ?E2 in *;
      repeat match goal with |- context [Req_EM_T ?x 0] => destruct (Req_EM_T x 0); try lra end;
      (split; [apply in_cube; auto|]; split; [apply in_cube; auto|]; unfold vdot, vadd, real; cbn; rewrite ?E1, ?E2; split; ring). }
    destruct R as (t0 & t1 & I0 & I1 & E0 & E1). pose proof (B t0 I0) as B0. pose proof (B t1 I1) as B1. rewrite E0 in B0. rewrite E1 in B1.
    unfold plus_or_minus. destruct Hs as [Hs|Hs]; rewrite Hs in *; [left|right]; split; auto; apply eq_IZR; lra. }
  assert (K1 : forall c, In c cube -> 0 <= vdot (vadd c (real i)) e1 <= 1) by (intros c I; rewrite <- S1; apply (C c I)).
  assert (K2 : forall c, In c cube -> 0 <= vdot (vadd c (real i)) e2 <= 1) by (intros c I; rewrite <- S2; apply (C c I)).
  assert (K3 : forall c, In c cube -> 0 <= vdot (vadd c (real i)) e3 <= 1) by (intros c I; rewrite <- S3; apply (C c I)).
  unfold vdot in S1, S2, S3.
  assert (Z0 : forall a b, a * b = 0 -> (a = 1 \/ a = -1) -> b = 0) by (intros a b E [->|E']; [lra|rewrite E' in E; lra]).
  assert (Rx : forall z, In z (irange vx (vertices e1 e2 e3)) -> z = fst (fst i)).
  { apply coord_range; [apply linear_x|].
    assert (Q1 := unit_cube_root (vx e1) (vy e1) (vz e1) S1 X1 Y1). assert (Q2 := unit_cube_root (vx e2) (vy e2) (vz e2) S2 X2 Y2).
    assert (Q3 := unit_cube_root (vx e3) (vy e3) (vz e3) S3 X3 Y3).
    destruct Q1 as [Q1|Q1]; [destruct Q2 as [Q2|Q2]; [destruct Q3 as [Q3|Q3]|]|].
    - rewrite Q1, Q2, Q3 in Cx. lra.
    - exists (vx e3). split; [|auto]. apply (SG e3 vx vx); auto. left. repeat split; eauto.
    - exists (vx e2). split; [apply (SG e2 vx vx); auto; left; repeat split; eauto|]. right; left. repeat split; auto.
      destruct Q3 as [Q3|[Q3|Q3]]; auto; rewrite Q3 in Cx; exfalso; nra.
    - exists (vx e1). split; [apply (SG e1 vx vx); auto; left; repeat split; eauto|]. left.
      destruct Q2 as [Q2|[Q2|Q2]], Q3 as [Q3|[Q3|Q3]]; auto; exfalso; nra. }
  assert (Ry : forall z, In z (irange vy (vertices e1 e2 e3)) -> z = snd (fst i)).
  { apply coord_range; [apply linear_y|].
    assert (Q1 := unit_cube_root (vy e1) (vx e1) (vz e1) ltac:(lra) ltac:(lra) Z1). assert (Q2 := unit_cube_root (vy e2) (vx e2) (vz e2) ltac:(lra) ltac:(lra) Z2).
    assert (Q3 := unit_cube_root (vy e3) (vx e3) (vz e3) ltac:(lra) ltac:(lra) Z3). rewrite Rmult_comm in X1, X2, X3.
    destruct Q1 as [Q1|Q1]; [destruct Q2 as [Q2|Q2]; [destruct Q3 as [Q3|Q3]|]|].
    - rewrite Q1, Q2, Q3 in Cy. lra.
    - exists (vy e3). split; [|auto]. apply (SG e3 vy vy); auto. right; left. repeat split; eauto.
    - exists (vy e2). split; [apply (SG e2 vy vy); auto; right; left; repeat split; eauto|]. right; left. repeat split; auto.
      destruct Q3 as [Q3|[Q3|Q3]]; auto; rewrite Q3 in Cy; exfalso; nra.
    - exists (vy e1). split; [apply (SG e1 vy vy); auto; right; left; repeat split; eauto|]. left.
      destruct Q2 as [Q2|[Q2|Q2]], Q3 as [Q3|[Q3|Q3]]; auto; exfalso; nra. }
  assert (Rz : forall z, In z (irange vz (vertices e1 e2 e3)) -> z = snd i).
  { apply coord_range; [apply linear_z|]. rewrite Rmult_comm in Y1, Y2, Y3, Z1, Z2, Z3.
    assert (Q1 := unit_cube_root (vz e1) (vx e1) (vy e1) ltac:(lra) Y1 Z1). assert (Q2 := unit_cube_root (vz e2) (vx e2) (vy e2) ltac:(lra) Y2 Z2).
    assert (Q3 := unit_cube_root (vz e3) (vx e3) (vy e3) ltac:(lra) Y3 Z3).
    destruct Q1 as [Q1|Q1]; [destruct Q2 as [Q2|Q2]; [destruct Q3 as [Q3|Q3]|]|].
    - rewrite Q1, Q2, Q3 in Cz. lra.
    - exists (vz e3). split; [|auto]. apply (SG e3 vz vz); auto. right; right. repeat split; eauto.
    - exists (vz e2). split; [apply (SG e2 vz vz); auto; right; right; repeat split; eauto|]. right; left. repeat split; auto.
      destruct Q3 as [Q3|[Q3|Q3]]; auto; rewrite Q3 in Cz; exfalso; nra.
    - exists (vz e1). split; [apply (SG e1 vz vz); auto; right; right; repeat split; eauto|]. left.
      destruct Q2 as [Q2|[Q2|Q2]], Q3 as [Q3|[Q3|Q3]]; auto; exfalso; nra. }
  destruct cells0 as [|c l] eqn:E; auto. exfalso. assert (I : In c cells0) by (rewrite E; left; auto).
  apply cells0_In in I. destruct I as ([[a b] d] & I & _ & Kc & Nf). apply iproduct_In in I. destruct I as (Ia & Ib & Ic).
  apply Rx in Ia. apply Ry in Ib. apply Rz in Ic. replace (a, b, d) with i in Kc by (destruct i as [[i0 i1] i2]; cbn in *; congruence).
  congruence.
Qed.

(** Every position of the closed box is accepted by some cell. *)
Definition cells : list cell := cuboid_cells e1 e2 e3 (nrm e1) (nrm e2) (nrm e3).
Lemma cells_eq : cells = match cells0 with [] => [Cell (0, 0, 0)%Z []] | _ => cells0 end. Proof. reflexivity. Qed.

Hypothesis TE : forall p, exists k, half_open e1 e2 e3 (vadd p (real k)).

Lemma half_closed : forall p, half_open e1 e2 e3 p -> closed e1 e2 e3 p.
Proof. unfold half_open, closed; intros; lra. Qed.

Lemma accepted_interior : forall p, open_cube p -> exists c, In c cells /\ isin c p = true.
Proof.
  intros p B. destruct (TE p) as (k & H). apply half_closed in H. destruct (cell_complete k p B H) as (fs & K & F).
  rewrite cells_eq. destruct fs as [|f fs].
  - rewrite (full_tile_only k K). exists (Cell (0, 0, 0)%Z []). split; [left; auto|reflexivity].
  - assert (I : In (Cell k (f :: fs)) cells0).
    { apply cells0_In. exists k. split; [apply (interior_tile k p); auto|]. cbn [c_ipos c_faces]. split; auto. split; auto. discriminate. }
    exists (Cell k (f :: fs)). split; [|exact F]. revert I. destruct cells0; [intros []|auto].
Qed.

Lemma plane_segment : forall f p t, plane_test f (vadd p (vscale t (vsub (V (1/2) (1/2) (1/2)) p))) =
  plane_test f p + t * (plane_test f (V (1/2) (1/2) (1/2)) - plane_test f p).
Proof. intros [n d] p t. unfold plane_test; cbn [pl_n pl_d]. rewrite !rdot_eq. unfold vdot, vadd, vscale, vsub; cbn. ring. Qed.

Lemma reject_near : forall (l : list cell) p, (forall c, In c l -> isin c p = false) -> exists d, 0 < d <= 1 /\
  forall t, 0 < t < d -> forall c, In c l -> isin c (vadd p (vscale t (vsub (V (1/2) (1/2) (1/2)) p))) = false.
Proof.
  induction l as [|c l IH]; intros p H.
  - exists 1. split; [lra|]. intros t _ c [].
  - destruct IH with (p := p) as (d & Hd & A); [intros; apply H; right; auto|].
    assert (Hc := H c (or_introl eq_refl)).
    assert (X : exists f, In f (c_faces c) /\ plane_test f p < 0).
    { unfold isin in Hc. clear - Hc. induction (c_faces c) as [|f fs IHf]; [discriminate|]. cbn in Hc.
      destruct (Rleb 0 (plane_test f p)) eqn:E. - destruct IHf as (g & I & G); auto. exists g; split; [right|]; auto.
      - exists f. split; [left; auto|]. apply Rleb_false; auto. }
    destruct X as (f & I & F). set (a := plane_test f p) in *. set (b := plane_test f (V (1/2) (1/2) (1/2))).
    assert (DD : exists d', 0 < d' /\ forall t, 0 < t < d' -> a + t * (b - a) < 0).
    { destruct (Rlt_dec b 0) as [Lb|Gb]. - exists 1. split; [lra|]. intros t T. nra.
      - exists (- a / (b - a)). split; [apply Rdiv_lt_0_compat; lra|]. intros t [T1 T2].
        assert (Y : t * (b - a) < - a / (b - a) * (b - a)) by (apply Rmult_lt_compat_r; lra).
        replace (- a / (b - a) * (b - a)) with (- a) in Y by (field; lra). lra. }
    destruct DD as (d' & Pd & Hd'). exists (Rmin d d'). split. { pose proof (Rmin_l d d'). unfold Rmin in *. destruct (Rle_dec d d'); lra. }
    intros t T c' [<-|Ic].
    + pose proof (Rmin_r d d'). assert (Y := Hd' t ltac:(lra)). unfold a, b in Y. rewrite <- (plane_segment f p t) in Y. unfold isin.
      destruct (forallb _ _) eqn:E; auto. rewrite forallb_forall in E. apply E, Rleb_true in I. lra.
    + pose proof (Rmin_l d d'). apply A; auto. lra.
Qed.

Lemma accepted : forall p, in_box one p -> exists c, In c cells /\ isin c p = true.
Proof.
  intros p B. destruct (existsb (fun c => isin c p) cells) eqn:E; [apply existsb_exists; auto|].
  exfalso. destruct (reject_near cells p) as (d & Hd & A).
  - intros c I. destruct (isin c p) eqn:F; auto. assert (X : existsb (fun c => isin c p) cells = true) by (apply existsb_exists; eauto). congruence.
  - set (q := vadd p (vscale (d / 2) (vsub (V (1/2) (1/2) (1/2)) p))). destruct (accepted_interior q) as (c & I & F).
    + unfold q, open_cube, in_box, one in *. destruct p as [x y z]; cbn in *. repeat split; nra.
    + unfold q in F. rewrite (A (d / 2)) in F; auto; [discriminate|lra].
Qed.

(** The loop over cells. *)
Lemma loop_true : forall l p m, m = true -> fst (fold_left (fun '(m, p) c => if isin c p then (true, vadd p (vec_of (c_ipos c))) else (m, p)) l (m, p)) = true.
Proof. induction l as [|c l IH]; intros p m ->; cbn; auto. destruct (isin c p); apply IH; auto. Qed.

Lemma loop_accept : forall l p, (exists c, In c l /\ isin c p = true) -> fst (loop_cells l p) = true.
Proof.
  unfold loop_cells. induction l as [|c l IH]; intros p (c' & I & F); [destruct I|]. cbn.
  destruct (isin c p) eqn:E; [apply loop_true; auto|]. apply IH. destruct I as [<-|I]; [congruence|eauto].
Qed.

(** The loop adds integer vectors. *)
Lemma loop_shift : forall l p m, exists k, snd (fold_left (fun '(m, p) c => if isin c p then (true, vadd p (vec_of (c_ipos c))) else (m, p)) l (m, p)) = vadd p (real k).
Proof.
  induction l as [|c l IH]; intros p m; cbn.
  - exists (0, 0, 0)%Z. unfold real. change (V (IZR 0) (IZR 0) (IZR 0)) with vzero. rewrite vadd_0_r. auto.
  - destruct (isin c p).
    + destruct (IH (vadd p (vec_of (c_ipos c))) true) as (k & E). exists (zadd (c_ipos c) k). rewrite E, real_add, real_vec_of, vadd_assoc. auto.
    + apply IH.
Qed.
Lemma loop_cells_ok : forall p, in_box one p -> exists k, loop_cells cells p = (true, vadd p (real k)).
Proof.
  intros p B. pose proof (loop_accept cells p (accepted p B)) as A. destruct (loop_shift cells p false) as (k & S).
  exists k. unfold loop_cells in *. destruct (fold_left _ cells (false, p)) as [m q]. cbn in *. congruence.
Qed.

(** If the unit cube reaches as far as the cuboid along each edge, the loop never leaves the cuboid. *)
Hypothesis R1 : vdot e1 e1 <= reach e1.
Hypothesis R2 : vdot e2 e2 <= reach e2.
Hypothesis R3 : vdot e3 e3 <= reach e3.

Lemma reach_corner : forall e, exists c, In c cube /\ vdot c e = reach e.
Proof.
  intros [x y z]. set (t := fun a : R => if Rlt_dec a 0 then 0 else 1).
  assert (T : forall a, (t a = 0 \/ t a = 1) /\ t a * a = Rmax 0 a).
  { intros a. unfold t, Rmax. destruct (Rlt_dec a 0), (Rle_dec 0 a); try lra; split; auto; ring. }
  destruct (T x) as [X X'], (T y) as [Y Y'], (T z) as [Z Z'].
  exists (V (t x) (t y) (t z)). split; [apply in_cube; auto|]. unfold vdot, reach; cbn. lra.
Qed.

Lemma cell_stays : forall i k p, keep_faces (faces i) = Some k -> closed e1 e2 e3 p ->
  forallb (fun f => Rleb 0 (plane_test f p)) k = true -> closed e1 e2 e3 (vadd p (real i)).
Proof.
  intros i k p K C H. apply faces_closed. intros f I. destruct (keep_some _ _ K) as [_ S]. destruct (S f I) as [J|B].
  { rewrite forallb_forall in H. apply Rleb_true, H; auto. }
  assert (Lo : forall e, 0 < vnorm e -> f = plane_new (vadd vzero (vopp (vec_of i))) (nrm e) -> 0 <= vdot p e -> 0 <= plane_test f p).
  { intros e P -> Pe. assert (Z := B (V 0 0 0) ltac:(apply in_cube; auto)). rewrite lo_test in *. apply (side_lo e _ P).
    apply (side_lo e _ P) in Z. rewrite vdot_add_l in *. replace (vdot (V 0 0 0) e) with 0 in Z by (unfold vdot; cbn; ring). lra. }
  assert (Hi : forall e, 0 < vnorm e -> f = plane_new (vadd (vadd vzero e) (vopp (vec_of i))) (vopp (nrm e)) -> vdot e e <= reach e -> vdot p e <= vdot e e -> 0 <= plane_test f p).
  { intros e P -> Re Pe. destruct (reach_corner e) as (c & Ic & Ec). assert (Z := B c Ic). rewrite hi_test in * by auto. apply (side_hi e _ P).
    apply (side_hi e _ P) in Z. rewrite vdot_add_l in *. lra. }
  unfold faces, tile_faces in I. cbn [nth vertices In] in I. destruct C as (C1 & C2 & C3).
  destruct I as [<-|[<-|[<-|[<-|[<-|[<-|[]]]]]]].
  - apply (Lo e1); auto; lra. - apply (Hi e1); auto; lra.
  - apply (Lo e2); auto; lra. - apply (Hi e2); auto; lra.
  - apply (Lo e3); auto; lra. - apply (Hi e3); auto; lra.
Qed.

Lemma loop_stays : forall l p m, (forall c, In c l -> In c cells0) -> closed e1 e2 e3 p ->
  closed e1 e2 e3 (snd (fold_left (fun '(m, p) c => if isin c p then (true, vadd p (vec_of (c_ipos c))) else (m, p)) l (m, p))).
Proof.
  induction l as [|c l IH]; intros p m S C; cbn; auto. destruct (isin c p) eqn:E.
  - apply IH; [intros; apply S; right; auto|]. assert (I := S c (or_introl eq_refl)). apply cells0_In in I.
    destruct I as (i & _ & <- & K & _). rewrite real_vec_of. eapply cell_stays; eauto.
  - apply IH; auto. intros; apply S; right; auto.
Qed.

Lemma loop_lands : forall l p m, (forall c, In c l -> In c cells0) -> in_box one p -> (exists c, In c l /\ isin c p = true) ->
  closed e1 e2 e3 (snd (fold_left (fun '(m, p) c => if isin c p then (true, vadd p (vec_of (c_ipos c))) else (m, p)) l (m, p))).
Proof.
  induction l as [|c l IH]; intros p m S B (c' & I & F); [destruct I|]. cbn. destruct (isin c p) eqn:E.
  - apply loop_stays; [intros; apply S; right; auto|]. assert (J := S c (or_introl eq_refl)). apply cells0_In in J.
    destruct J as (i & _ & <- & K & _). rewrite real_vec_of. eapply cell_sound; eauto.
  - apply IH; auto; [intros; apply S; right; auto|]. destruct I as [<-|I]; [congruence|eauto].
Qed.

Lemma loop_in_cuboid : forall p, in_box one p -> closed e1 e2 e3 (snd (loop_cells cells p)).
Proof.
  intros p B. unfold loop_cells. pose proof (accepted p B) as A. rewrite cells_eq in *. destruct cells0 as [|c l] eqn:E.
  - (* the cuboid is the box itself *)
    cbn. replace (vadd p (V 0 0 0)) with p by (destruct p; unfold vadd; cbn; f_equal; ring).
    (* some tile is full *)
    assert (Q : exists k, keep_faces (faces k) = Some []).
    { destruct (TE (V (1/2) (1/2) (1/2))) as (k & H). apply half_closed in H.
      assert (Oc : open_cube (V (1/2) (1/2) (1/2))) by (unfold open_cube; cbn; lra).
      destruct (cell_complete k _ Oc H) as ([|f fs] & K & F); [eauto|]. exfalso.
      assert (I : In (Cell k (f :: fs)) cells0).
      { apply cells0_In. exists k. split; [apply (interior_tile k _ Oc); auto|]. cbn [c_ipos c_faces]. split; auto. split; auto. discriminate. }
      rewrite E in I. destruct I. }
    destruct Q as (k & K). destruct (full_tile_axes k K) as (S1 & S2 & S3 & AX).
    assert (PA : forall e, vdot e e = 1 -> vdot e e <= reach e -> (vx e * vy e = 0 /\ vx e * vz e = 0 /\ vy e * vz e = 0) -> 0 <= vdot p e <= vdot e e).
    { intros [x y z] S Re (A1 & A2 & A3). rewrite S in *. unfold vdot, reach in *. unfold in_box, one in B. cbn in *.
      assert (Q1 := unit_cube_root x y z S A1 A2). assert (Q2 := unit_cube_root y x z ltac:(lra) ltac:(lra) A3). assert (Q3 := unit_cube_root z x y ltac:(lra) ltac:(lra) ltac:(lra)).
      assert (Mx : Rmax 0 0 = 0) by (apply Rmax_left; lra). assert (M1 : Rmax 0 1 = 1) by (apply Rmax_right; lra). assert (Mm : Rmax 0 (-1) = 0) by (apply Rmax_left; lra).
      destruct Q1 as [-> | [->| ->]], Q2 as [->|[->| ->]], Q3 as [->|[->| ->]]; rewrite ?Mx, ?M1, ?Mm in Re; try lra. }
    split; [|split]; apply PA; auto.
  - apply loop_lands; auto. rewrite E. auto.
Qed.
End Cells.
