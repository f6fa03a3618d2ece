(** Proofs for Wobble_Thm.v: with real numbers, Wobble_Model.v is Remap_Model.v; walks with real numbers. *)
Require Import Reals ZArith List Bool Lra Lia.
From Verif Require Import Base Vec3 Sky_Model Cutsky_Model Box_Model Remap_Model Remap_Spec Remap_Proof Remap_Proof2 Remap_Proof3 Wobble_Model Wobble_Spec Wobble_Proof.
Import ListNotations.
Open Scope R_scope.

Notation up := vec_of_gvec.
Definition upp (f : gplane R) : plane := Plane (up (gp_n f)) (gp_d f).
Definition upc (c : gcell R) : cell := Cell (gc_ipos c) (map upp (gc_faces c)).

Lemma up_of : forall i, up (gvec_of exact i) = vec_of i. Proof. intros [[a b] c]. reflexivity. Qed.
Lemma dot_up : forall u v, rdot (up u) (up v) = gdot exact u v. Proof. reflexivity. Qed.
Lemma ortho_up : forall u1 u2 u3 e, orthogonalize (up u1) (up u2) (up u3) = Ok e ->
  let '(f1, f2, f3) := gorthogonalize exact u1 u2 u3 in e = (up f1, up f2, up f3).
Proof.
  intros u1 u2 u3 e. unfold orthogonalize, gorthogonalize, rsquare, fdiv. rewrite !dot_up.
  destruct (Req_EM_T (gdot exact u1 u1) 0); [discriminate|]. cbn [bind].
  destruct (Req_EM_T _ 0); [discriminate|]. cbn [bind]. intros H. injection H as <-. reflexivity.
Qed.
Lemma unit_up : forall e v, unit_of (up e) = Ok v ->
  v = up (GV (gx e / gnorm exact e) (gy e / gnorm exact e) (gz e / gnorm exact e)).
Proof. intros e v. unfold unit_of. destruct (Req_EM_T _ 0); [discriminate|]. intros H. injection H as <-. reflexivity. Qed.

Lemma test_up : forall f x, plane_test (upp f) (up x) = gtest exact f x. Proof. reflexivity. Qed.
Lemma tuc_up : forall f, test_unit_cube (upp f) = gtest_unit_cube exact f. Proof. reflexivity. Qed.
Lemma keep_up : forall l, keep_faces (map upp l) = option_map (map upp) (gkeep_faces exact l).
Proof.
  induction l as [|f l IH]; cbn [map keep_faces gkeep_faces]; auto. rewrite tuc_up. destruct (_ =? -1)%Z; auto. rewrite IH.
  destruct (gkeep_faces exact l); cbn [option_map]; auto. destruct (_ =? 0)%Z; reflexivity.
Qed.
Lemma vertices_up : forall e1 e2 e3, vertices (up e1) (up e2) (up e3) = map up (gvertices exact e1 e2 e3). Proof. reflexivity. Qed.
Lemma faces_up : forall e1 e2 e3 n1 n2 n3 i, tile_faces (up e1) (up e2) (up e3) (up n1) (up n2) (up n3) i = map upp (gtile_faces exact e1 e2 e3 n1 n2 n3 i).
Proof. intros e1 e2 e3 n1 n2 n3 [[a b] c]. reflexivity. Qed.
Lemma rmin_if : forall a b, Rmin a b = if Rltb b a then b else a.
Proof. intros. unfold Rmin, Rltb. destruct (Rle_dec a b), (Rlt_dec b a); auto; lra. Qed.
Lemma rmax_if : forall a b, Rmax a b = if Rltb a b then b else a.
Proof. intros. unfold Rmax, Rltb. destruct (Rle_dec a b), (Rlt_dec a b); auto; lra. Qed.
Lemma fold_ext : forall {X Y : Type} (f g : X -> Y -> X) l a, (forall x y, f x y = g x y) -> fold_left f l a = fold_left g l a.
Proof. intros X Y f g l. induction l; intros; cbn; auto. rewrite H. auto. Qed.
Lemma irange_up : forall (f : vec -> R) (g : gvec R -> R) vs, (forall v, f (up v) = g v) -> irange f (map up vs) = girange exact g vs.
Proof.
  intros f g vs H. unfold irange, girange. rewrite map_map. rewrite (map_ext _ _ H).
  assert (E1 : list_min (map g vs) = gmin exact (map g vs)) by (unfold list_min, gmin; destruct (map g vs); auto; apply fold_ext, rmin_if).
  assert (E2 : list_max (map g vs) = gmax exact (map g vs)) by (unfold list_max, gmax; destruct (map g vs); auto; apply fold_ext, rmax_if).
  rewrite E1, E2. reflexivity.
Qed.
Lemma tile_up : forall e1 e2 e3 n1 n2 n3 i, tile_cell (up e1) (up e2) (up e3) (up n1) (up n2) (up n3) i = map upc (gtile_cell exact e1 e2 e3 n1 n2 n3 i).
Proof.
  intros. unfold tile_cell, gtile_cell. rewrite faces_up, keep_up. destruct (gkeep_faces _ _) as [[|f l]|]; reflexivity.
Qed.
Lemma flat_map_map : forall {X Y Z : Type} (h : Y -> Z) (f : X -> list Z) (g : X -> list Y) l, (forall x, f x = map h (g x)) -> flat_map f l = map h (flat_map g l).
Proof. intros X Y Z h f g l H. induction l; cbn; auto. rewrite H, IHl, map_app. reflexivity. Qed.
Lemma cells_up : forall e1 e2 e3 n1 n2 n3, cuboid_cells (up e1) (up e2) (up e3) (up n1) (up n2) (up n3) = map upc (gcells exact e1 e2 e3 n1 n2 n3).
Proof.
  intros. unfold cuboid_cells, gcells. rewrite vertices_up, (irange_up vx gx), (irange_up vy gy), (irange_up vz gz) by reflexivity.
  rewrite (flat_map_map upc _ (gtile_cell exact e1 e2 e3 n1 n2 n3)) by (intros; apply tile_up).
  change iproduct with gproduct. destruct (flat_map _ _); reflexivity.
Qed.

Lemma isin_up : forall c x, isin (upc c) (up x) = gisin exact c x.
Proof. intros [i l] x. unfold isin, gisin; cbn [upc c_faces gc_faces]. induction l; cbn; auto. rewrite IHl. reflexivity. Qed.
Lemma add_up : forall x i, vadd (up x) (vec_of i) = up (gadd exact x (gvec_of exact i)).
Proof. intros x [[a b] c]. reflexivity. Qed.
Lemma loop_up : forall l m x, fold_left (fun '(m, p) c => if isin c p then (true, vadd p (vec_of (c_ipos c))) else (m, p)) (map upc l) (m, up x) =
  let '(m', p) := fold_left (fun '(m, p) c => if gisin exact c p then (true, gadd exact p (gvec_of exact (gc_ipos c))) else (m, p)) l (m, x) in (m', up p).
Proof.
  induction l as [|c l IH]; intros m x; cbn [map fold_left]; auto. rewrite isin_up. destruct (gisin exact c x); [|apply IH].
  cbn [upc c_ipos]. rewrite add_up. apply IH.
Qed.

(** Same attributes. *)
Definition same_cuboid (c : gcuboid R) (c' : cuboid) : Prop :=
  cu_boxsize c' = up (gu_boxsize c) /\ cu_n1 c' = up (gu_n1 c) /\ cu_n2 c' = up (gu_n2 c) /\ cu_n3 c' = up (gu_n3 c) /\
  cu_resize c' = up (gu_resize c) /\ cu_cells c' = map upc (gu_cells c).
Lemma transform_up : forall c c' x, same_cuboid c c' -> gx (gu_boxsize c) <> 0 -> gy (gu_boxsize c) <> 0 -> gz (gu_boxsize c) <> 0 ->
  cu_transform1 c' false (up x) = match gtransform1 exact c x with Ok y => Ok (up y) | Err e => Err e end.
Proof.
  intros c c' x (E0 & E1 & E2 & E3 & E4 & E5) X Y Z. unfold cu_transform1. rewrite E0, vdiv_ok by auto. cbn [bind].
  unfold loop_cells. rewrite E5. change (vdiv (up x) (up (gu_boxsize c))) with (up (gdiv exact x (gu_boxsize c))). rewrite loop_up.
  unfold gtransform1, gloop. change (num exact) with R. destruct (fold_left _ _ _) as [[] p]; auto.
  unfold project. rewrite E1, E2, E3, E4. reflexivity.
Qed.
Lemma idet_zdet : forall u v w, idet3 u v w = zdet u v w.
Proof. intros [[a b] c] [[d e] f] [[g h] i]. unfold idet3, zdet. ring. Qed.
Lemma new_up : forall u1 u2 u3 size, unimodular u1 u2 u3 -> exists (c : gcuboid R) c', gcuboid_new exact u1 u2 u3 size = Ok c /\
  cuboid_new (real u1) (real u2) (real u3) (up size) = Ok c' /\ same_cuboid c c' /\ gu_boxsize c = size.
Proof.
  intros u1 u2 u3 size U. pose proof (unimodular_det3 _ _ _ U) as D. destruct (gs_exists _ _ _ D) as (e1 & e2 & e3 & G).
  pose proof (cuboid_ok _ _ _ _ _ _ (up size) D G) as E. unfold cuboid_new in E |- *. destruct (Req_EM_T _ 1); [|lra].
  assert (Rr : forall u, real u = up (gvec_of exact u)) by (intros [[a b] c]; reflexivity). rewrite !Rr in *.
  destruct (orthogonalize _ _ _) as [[[f1 f2] f3]|] eqn:O; [|discriminate]. apply ortho_up in O.
  unfold gcuboid_new. rewrite idet_zdet, U. cbn [negb Z.eqb Pos.eqb].
  destruct (gorthogonalize exact _ _ _) as [[g1 g2] g3]. injection O as -> -> ->. cbn [bind] in *.
  destruct (unit_of (up g1)) eqn:U1; [|discriminate]. destruct (unit_of (up g2)) eqn:U2; [|discriminate]. destruct (unit_of (up g3)) eqn:U3; [|discriminate].
  cbn [bind] in *. apply unit_up in U1, U2, U3. eexists _, _. split; [reflexivity|]. split; [reflexivity|]. subst.
  split; [|reflexivity]. unfold same_cuboid; cbn [cu_boxsize cu_n1 cu_n2 cu_n3 cu_resize cu_cells gu_boxsize gu_n1 gu_n2 gu_n3 gu_resize gu_cells].
  repeat split; try reflexivity. apply cells_up.
Qed.
Lemma same_program : forall u1 u2 u3 size, unimodular u1 u2 u3 -> positive (up size) ->
  exists c c', gcuboid_new exact u1 u2 u3 size = Ok c /\ cuboid_new (real u1) (real u2) (real u3) (up size) = Ok c' /\
  forall x, cu_transform1 c' false (up x) = match gtransform1 exact c x with Ok y => Ok (up y) | Err e => Err e end.
Proof.
  intros u1 u2 u3 size U (P1 & P2 & P3). destruct (new_up u1 u2 u3 size U) as (c & c' & E & E' & S & B). exists c, c'. split; auto. split; auto.
  intros x. cbn in *. apply transform_up; auto; rewrite B; lra.
Qed.

(** Walks with real numbers. *)
Lemma dot_scalar : forall u v, gdot exact u v = scalar u v. Proof. intros. unfold gdot, scalar; cbn. ring. Qed.
Lemma move_exact : forall p i, gadd exact p (gvec_of exact i) = moved p i. Proof. intros p [[a b] c]. reflexivity. Qed.
Lemma test_height : forall f p, gtest exact f p = height f p. Proof. intros. unfold gtest, height. rewrite dot_scalar. reflexivity. Qed.
Lemma walk_exact : forall tau b l p q t, 0 <= tau -> walk tau b l p q t -> forall m,
  fold_left (fun '(m, p) c => if gisin exact c p then (true, gadd exact p (gvec_of exact (gc_ipos c))) else (m, p)) l (m, p) = (orb m t, q).
Proof.
  intros tau b l p q t T W. induction W as [p W | c l p q t W Hin Hw IH | c l p q t W Hout Hw IH]; intros m; cbn [fold_left].
  - rewrite orb_false_r. reflexivity.
  - replace (gisin exact c p) with true.
    + rewrite move_exact. rewrite IH. rewrite orb_true_r. reflexivity.
    + symmetry. apply forallb_forall. intros f I. cbn [aleb exact of_Z]. apply Rleb_true. rewrite test_height. specialize (Hin f I). lra.
  - replace (gisin exact c p) with false; [apply IH|]. symmetry. destruct (gisin exact c p) eqn:E; auto. unfold gisin in E. rewrite forallb_forall in E.
    destruct Hout as (f & I & H). specialize (E f I). cbn [aleb exact of_Z] in E. apply Rleb_true in E. rewrite test_height in E. lra.
Qed.
Lemma transform_exact : forall tau b c x q t, 0 <= tau -> walk tau b (gu_cells c) (fraction c x) q t ->
  gtransform1 exact c x = if t then Ok (image c q) else Err CuboidError.
Proof.
  intros tau b c x q t T W. unfold gtransform1, gloop. pose proof (walk_exact _ _ _ _ _ _ T W false) as E.
  replace (fold_left _ _ _) with (t, q). destruct t; auto. unfold gproject. rewrite !dot_scalar. reflexivity.
Qed.
Lemma margin_pos : forall eps eta k n d b, 0 <= eps -> 0 <= eta -> 0 <= n -> 0 <= d -> 0 <= b -> 0 <= margin eps eta k n d b.
Proof.
  intros. unfold margin. pose proof (pos_INR k). assert (0 <= eps * d) by (apply Rmult_le_pos; auto).
  assert (0 <= eps * b) by (apply Rmult_le_pos; auto). assert (0 <= eps * n * b) by (repeat apply Rmult_le_pos; auto).
  assert (0 <= (INR k + 1) * n * (eps * b + eta)) by (repeat apply Rmult_le_pos; lra). lra.
Qed.
(** Positions of the box far from faces are not lost. *)
Lemma clear_found : forall eps eta rnd u1 u2 u3 size (c : gcuboid R) x n d s b q t, unimodular u1 u2 u3 -> positive (up size) -> gcuboid_new exact u1 u2 u3 size = Ok c ->
  in_box (up size) (up x) ->
  rounds eps eta rnd -> fine eps eta (length (gu_cells c)) -> stored n d s c -> 0 <= d -> 1 <= b ->
  walk (margin eps eta (length (gu_cells c)) n d b) b (gu_cells c) (fraction c x) q t ->
  exists y z, gtransform1 exact c x = Ok z /\ gtransform1 (rounded rnd) c x = Ok y /\ near (s * margin eps eta (length (gu_cells c)) n d b + eta) y z.
Proof.
  intros eps eta rnd u1 u2 u3 size c x n d s b q t U P E B Hr Hf Hs Hd Hb W.
  assert (Hn : 0 <= n) by (destruct Hs as (_ & (H & _) & _); eapply Rle_trans; [apply Rabs_pos | exact H]).
  assert (M0 : 0 <= margin eps eta (length (gu_cells c)) n d b) by (destruct Hf as (F1 & F2 & _); apply margin_pos; lra).
  pose proof (transform_exact _ _ _ _ _ _ M0 W) as T.
  destruct (same_program u1 u2 u3 size U P) as (c1 & c' & E1 & E' & S). rewrite E in E1. injection E1 as <-.
  destruct (round_trip u1 u2 u3 (up size) U P) as (c2 & E2 & R). rewrite E' in E2. injection E2 as <-.
  destruct (R (up x) B) as (y0 & x0 & Y & _). rewrite S, T in Y. destruct t; [|discriminate].
  destruct (transform_walk eps eta rnd c x n d s b q Hr Hf Hs Hd Hb W) as (y & Ey & Ny). exists y, (image c q). auto.
Qed.
Lemma one_lost : forall A c l x, In x l -> gtransform1 A c x = Err CuboidError -> gtransform A c l = Err CuboidError.
Proof.
  intros A c l x. unfold gtransform. induction l as [|a l IH]; [intros []|]. intros [-> | I] E; cbn [map_result].
  - rewrite E. reflexivity.
  - assert (K : forall e, gtransform1 A c a = Err e -> e = CuboidError).
    { intros e. unfold gtransform1. destruct (gloop A _ _) as [[] ?]; congruence. }
    destruct (gtransform1 A c a) eqn:Ea; cbn [bind]; [|rewrite (K _ eq_refl); reflexivity]. rewrite (IH I E). reflexivity.
Qed.
