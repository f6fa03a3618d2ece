(** Exact conditions for C21 (volume of remapped boxes), C57 (displacements) and C40 (local line of sight). Vocabulary in Exact_Spec.v. *)
Require Import Reals ZArith String List Bool Lra Lia.
From Verif Require Import Base Vec3 Isometry_Model Isometry_Proof Remap_Model Remap_Spec Remap_Proof Remap_Proof2 Remap_Proof3 Remap_Proof4 Box_Spec
  Density_Proof Rsd_Model Mock_Model Mock_Spec Fourier_Proof Mock_Thm Mock_Thm2 Exact_Spec Exact_Proof.
Import ListNotations.
Open Scope R_scope.

(** C21. For every box, the sides of the cuboid are the lengths of its scaled edges, its volume is never below that of the box, and it is the same exactly
    when every edge lies along axes whose sides are equal. *)
Theorem C21_volume_exactly : forall u1 u2 u3 size, unimodular u1 u2 u3 -> positive size ->
  exists c e1 e2 e3, cuboid_new (real u1) (real u2) (real u3) size = Ok c /\ gram_schmidt (real u1) (real u2) (real u3) e1 e2 e3 /\
    cu_size c = V (vnorm (vmul size e1)) (vnorm (vmul size e2)) (vnorm (vmul size e3)) /\
    volume size <= volume (cu_size c) /\
    (volume (cu_size c) = volume size <-> joins_equal_sides size e1 /\ joins_equal_sides size e2 /\ joins_equal_sides size e3).
Proof.
  intros u1 u2 u3 size U P. destruct (cuboid_shape u1 u2 u3 size U P) as (c & e1 & e2 & e3 & E & G & _ & _ & _ & _ & S).
  exists c, e1, e2, e3. split; auto. split; auto. split; auto.
  pose proof (unimodular_det3 _ _ _ U) as D. rewrite det3_eq in D.
  assert (DE : mdet (M e1 e2 e3) = 1).
  { rewrite <- D. destruct G as (-> & (a & ->) & (b & d & ->) & _). destruct (real u1), (real u2), (real u3). unfold mdet, vdot, vcross, vadd, vscale. cbn. ring. }
  destruct G as (_ & _ & _ & O12 & O13 & O23).
  assert (DS : mdet (M (vmul size e1) (vmul size e2) (vmul size e3)) = volume size) by (rewrite scaled_det, DE; unfold volume; ring).
  assert (PV : 0 < volume size) by (destruct P as (P1 & P2 & P3); unfold volume; repeat apply Rmult_lt_0_compat; auto).
  destruct (hadamard (vmul size e1) (vmul size e2) (vmul size e3)) as [LE EQ]; [rewrite DS; auto|]. rewrite DS in *. rewrite S. unfold volume at 2 3. cbn [vx vy vz]. split; [exact LE|].
  rewrite EQ. apply orthogonal_scaled; auto. rewrite DE. lra.
Qed.
Print Assumptions C21_volume_exactly.
(** A box with two equal sides, sheared along them, keeps its volume; sheared along the others, it does not. *)
Example C21_exact_case : unimodular (1, 1, 0)%Z (0, 1, 0)%Z (0, 0, 1)%Z /\ positive (V 1 1 2) /\
  (forall c, cuboid_new (real (1, 1, 0)%Z) (real (0, 1, 0)%Z) (real (0, 0, 1)%Z) (V 1 1 2) = Ok c -> volume (cu_size c) = 2) /\
  (forall c, cuboid_new (real (1, 1, 0)%Z) (real (0, 1, 0)%Z) (real (0, 0, 1)%Z) (V 1 2 1) = Ok c -> 2 < volume (cu_size c)).
Proof.
  assert (U : unimodular (1, 1, 0)%Z (0, 1, 0)%Z (0, 0, 1)%Z) by reflexivity. assert (P : positive (V 1 1 2)) by (repeat split; cbn; lra). assert (P' : positive (V 1 2 1)) by (repeat split; cbn; lra).
  assert (DD : mdet (M (V 1 1 0) (V 0 1 0) (V 0 0 1)) = 1) by (unfold mdet, vdot, vcross; cbn; ring).
  split; auto. split; auto. split; intros c E.
  - destruct (C21_volume_exactly _ _ _ _ U P) as (c' & e1 & e2 & e3 & E' & G & _ & _ & Q). rewrite E in E'. injection E' as <-.
    destruct (gs_unique _ _ _ _ _ _ _ _ _ DD G sheared_gs) as (-> & -> & ->). transitivity (volume (V 1 1 2)); [apply Q|unfold volume; cbn; ring]. unfold joins_equal_sides; cbn. repeat split; intros; lra.
  - destruct (C21_volume_exactly _ _ _ _ U P') as (c' & e1 & e2 & e3 & E' & G & _ & L & Q). rewrite E in E'. injection E' as <-.
    destruct (gs_unique _ _ _ _ _ _ _ _ _ DD G sheared_gs) as (-> & -> & ->). replace 2 with (volume (V 1 2 1)) by (unfold volume; cbn; ring).
    destruct L as [L|L]; [exact L|]. symmetry in L. apply Q in L. destruct L as ((A & _) & _). cbn in A. lra.
Qed.

Lemma at_half_spec : forall n k, (if Nat.eq_dec (ix k) (Nat.div (ix n) 2) then true else false) = at_half n k 0 /\ (if Nat.eq_dec (iy k) (Nat.div (iy n) 2) then true else false) = at_half n k 1 /\
  (if Nat.eq_dec (iz k) (Nat.div (iz n) 2) then true else false) = at_half n k 2.
Proof. intros n k. unfold at_half, index. repeat split; destruct (Nat.eq_dec _ _) as [E|E]; symmetry; (apply Nat.eqb_eq; exact E) || (apply Nat.eqb_neq; exact E). Qed.
Lemma on_half_eq : forall n k w, on_half n k w = V (if at_half n k 0 then vx w else 0) (if at_half n k 1 then vy w else 0) (if at_half n k 2 then vz w else 0).
Proof. intros n k w. destruct (at_half_spec n k) as (A & B & C). unfold on_half. rewrite <- A, <- B, <- C. destruct (Nat.eq_dec _ _), (Nat.eq_dec _ _), (Nat.eq_dec _ _); reflexivity. Qed.
Lemma Rsum_scale : forall {A} t (f : A -> R) l, Rsum (map (fun x => t * f x) l) = t * Rsum (map f l).
Proof. intros A t f l. unfold Rsum. induction l as [|x l IH]; cbn [map fold_right]; [ring|rewrite IH; ring]. Qed.
Lemma sq_zero : forall v, vdot v v = 0 <-> v = vzero.
Proof. intros v. split; [apply k2_zero|intros ->; unfold vdot, vzero; cbn; ring]. Qed.

(** C57. For every mode, the divergence of the displacement is the density times the share of the wave vector that is not along axes where the index is taken
    for the Nyquist one. It is minus the density exactly when there is none along these axes (or no density). *)
Theorem C57_divergence_exactly : forall freq box n delta_k k, let w := wave freq box n k in w <> vzero ->
  divergence w (fun i => displacement_k freq box n delta_k i k) = cscale (- (vdot (off_half n k w) (off_half n k w) / vdot w w)) (delta_k k) /\
  (divergence w (fun i => displacement_k freq box n delta_k i k) = cscale (-1) (delta_k k) <-> delta_k k = Cx 0 0 \/ on_half n k w = vzero).
Proof.
  intros freq box n delta_k k w NZ.
  assert (W : vdot w w <> 0) by (intro Z; apply k2_zero in Z; contradiction).
  assert (F : divergence w (fun i => displacement_k freq box n delta_k i k) = cscale (- (vdot (off_half n k w) (off_half n k w) / vdot w w)) (delta_k k)).
  { unfold divergence, displacement_k, off_half. cbv zeta. rewrite on_half_eq. fold w. unfold safe_k2. destruct (Req_EM_T (vdot w w) 0); [contradiction|].
    destruct (at_half n k 0), (at_half n k 1), (at_half n k 2); unfold component, cscale, cadd, cmul, vsub, vadd, vopp; apply cplx_eq; unfold vdot in *; cbn [re im vx vy vz] in *; field; auto. }
  split; [exact F|]. rewrite F.
  assert (S : vdot (off_half n k w) (off_half n k w) = vdot w w - vdot (on_half n k w) (on_half n k w)).
  { unfold off_half. rewrite on_half_eq. destruct (at_half n k 0), (at_half n k 1), (at_half n k 2); unfold vdot, vsub, vadd, vopp; cbn [vx vy vz]; ring. }
  split.
  - intros H. destruct (Req_dec (vdot (on_half n k w) (on_half n k w)) 0) as [Z|Z]; [right; apply k2_zero; auto|left].
    assert (K : forall t, - (vdot (off_half n k w) (off_half n k w) / vdot w w) * t = -1 * t -> t = 0).
    { intros t T. rewrite S in T. assert (vdot (on_half n k w) (on_half n k w) / vdot w w * t = 0). { replace ((vdot w w - vdot (on_half n k w) (on_half n k w)) / vdot w w) with (1 - vdot (on_half n k w) (on_half n k w) / vdot w w) in T by (field; auto). lra. }
      apply Rmult_integral in H0. destruct H0 as [H0|H0]; [|auto]. exfalso. apply Z. apply Rmult_eq_reg_r with (/ vdot w w); [unfold Rdiv in H0; lra|apply Rinv_neq_0_compat; auto]. }
    unfold cscale in H. destruct (delta_k k) as [a b]. cbn [re im] in *. injection H as H1 H2. f_equal; apply K; auto.
  - intros [-> |Z]; [unfold cscale; cbn; f_equal; ring|]. rewrite S, Z. replace (vdot vzero vzero) with 0 by (unfold vdot, vzero; cbn; ring). f_equal. field. auto.
Qed.
Print Assumptions C57_divergence_exactly.
(** Its rotational is zero exactly when the wave vector is all along these axes, or not along them at all (or there is no density). *)
Theorem C57_irrotational_exactly : forall freq box n delta_k k, let w := wave freq box n k in w <> vzero ->
  ((forall i j, (i < 3)%nat -> (j < 3)%nat -> cscale (component w i) (displacement_k freq box n delta_k j k) = cscale (component w j) (displacement_k freq box n delta_k i k)) <->
   delta_k k = Cx 0 0 \/ on_half n k w = vzero \/ off_half n k w = vzero).
Proof.
  intros freq box n delta_k k w NZ.
  assert (W : vdot w w <> 0) by (intro Z; apply k2_zero in Z; contradiction).
  assert (SK : safe_k2 w = vdot w w) by (unfold safe_k2; destruct (Req_EM_T (vdot w w) 0); [contradiction|auto]).
  assert (D : forall i j, cscale (component w i) (displacement_k freq box n delta_k j k) =
    cscale (component w i * component w j / vdot w w * (if at_half n k j then 0 else 1)) (cmul (Cx 0 1) (delta_k k))).
  { intros i j. unfold displacement_k. cbv zeta. fold w. rewrite SK. unfold cscale, cmul. cbn [re im]. apply cplx_eq; cbn [re im]; unfold Rdiv; ring. }
  assert (Z0 : forall t : cplx, cmul (Cx 0 1) t = Cx 0 0 -> t = Cx 0 0) by (intros [a b] H; unfold cmul in H; cbn in H; injection H as H1 H2; f_equal; lra).
  split.
  - intros H. destruct (Req_dec (re (delta_k k)) 0) as [R0|R0]; [destruct (Req_dec (im (delta_k k)) 0) as [I0|I0]; [left; apply cplx_eq; auto|]|]; right.
    1,2: assert (K : forall i j, (i < 3)%nat -> (j < 3)%nat -> at_half n k i = true -> at_half n k j = false -> component w i * component w j = 0) by
      (intros i j Li Lj Hi Hj; pose proof (H i j Li Lj) as E; rewrite !D, Hi, Hj in E; unfold cscale, cmul in E; cbn [re im] in E; injection E as E1 E2;
       assert (Q : component w i * component w j / vdot w w = 0) by nra; apply Rmult_eq_reg_r with (/ vdot w w); [unfold Rdiv in Q; lra|apply Rinv_neq_0_compat; auto]).
    1,2: pose proof (K 0%nat 1%nat ltac:(lia) ltac:(lia)) as K01; pose proof (K 0%nat 2%nat ltac:(lia) ltac:(lia)) as K02; pose proof (K 1%nat 0%nat ltac:(lia) ltac:(lia)) as K10;
      pose proof (K 1%nat 2%nat ltac:(lia) ltac:(lia)) as K12; pose proof (K 2%nat 0%nat ltac:(lia) ltac:(lia)) as K20; pose proof (K 2%nat 1%nat ltac:(lia) ltac:(lia)) as K21; clear K;
      unfold off_half; rewrite on_half_eq; destruct w as [w1 w2 w3]; unfold component, vsub, vadd, vopp, vzero in *; cbn [vx vy vz] in *;
      destruct (at_half n k 0), (at_half n k 1), (at_half n k 2); repeat match goal with h : ?b = ?b -> _ |- _ => specialize (h eq_refl) | h : true = false -> _ |- _ => clear h | h : false = true -> _ |- _ => clear h end;
      repeat match goal with h : ?b = ?b -> _ |- _ => specialize (h eq_refl) | h : true = false -> _ |- _ => clear h | h : false = true -> _ |- _ => clear h end;
      destruct (Req_dec w1 0), (Req_dec w2 0), (Req_dec w3 0); subst; try (left; f_equal; ring); try (right; f_equal; ring); exfalso;
      match goal with h : ?a * ?b = 0, ha : ?a <> 0, hb : ?b <> 0 |- _ => apply Rmult_integral in h; destruct h; contradiction end.
  - intros H i j Li Lj. rewrite !D. clear D SK. clearbody w. destruct H as [-> |[H|H] ]; [unfold cmul, cscale; cbn; f_equal; ring| |].
    + rewrite on_half_eq in H. unfold vzero in H. injection H as H1 H2 H3.
      assert (A1 : at_half n k 0 = true -> vx w = 0) by (intros E; rewrite E in H1; lra). assert (A2 : at_half n k 1 = true -> vy w = 0) by (intros E; rewrite E in H2; lra). assert (A3 : at_half n k 2 = true -> vz w = 0) by (intros E; rewrite E in H3; lra).
      f_equal. unfold Rdiv. destruct i as [|[|[|i] ] ]; try lia; destruct j as [|[|[|j] ] ]; try lia; unfold component;
        destruct (at_half n k 0), (at_half n k 1), (at_half n k 2); try rewrite (A1 eq_refl); try rewrite (A2 eq_refl); try rewrite (A3 eq_refl); ring.
    + unfold off_half in H. rewrite on_half_eq in H. unfold vsub, vadd, vopp, vzero in H. cbn [vx vy vz] in H. injection H as H1 H2 H3.
      assert (A1 : at_half n k 0 = false -> vx w = 0) by (intros E; rewrite E in H1; lra). assert (A2 : at_half n k 1 = false -> vy w = 0) by (intros E; rewrite E in H2; lra). assert (A3 : at_half n k 2 = false -> vz w = 0) by (intros E; rewrite E in H3; lra).
      f_equal. unfold Rdiv. destruct i as [|[|[|i] ] ]; try lia; destruct j as [|[|[|j] ] ]; try lia; unfold component;
        destruct (at_half n k 0), (at_half n k 1), (at_half n k 2); try rewrite (A1 eq_refl); try rewrite (A2 eq_refl); try rewrite (A3 eq_refl); ring.
Qed.
Print Assumptions C57_irrotational_exactly.
(** On a mesh of five cells a side, the wave (2, 1, 0) loses its displacement along the first axis: one fifth of the divergence is left, and there is a rotational. *)
Example C57_exact_case : let n := I 5 5 5 in let k := I 2 1 0 in let w := wave signed (V 1 1 1) n k in
  w <> vzero /\ on_half n k w <> vzero /\ off_half n k w <> vzero /\ vdot (off_half n k w) (off_half n k w) / vdot w w = 1 / 5.
Proof.
  intros n k w. pose proof PI_RGT_0 as PP. assert (E : w = V (2 * PI * 2) (2 * PI) 0) by (unfold w, wave, signed, n, k; cbn -[PI]; f_equal; field).
  assert (EH : on_half n k w = V (2 * PI * 2) 0 0) by (rewrite on_half_eq, E; unfold at_half, n, k; cbn -[PI]; reflexivity).
  assert (EO : off_half n k w = V 0 (2 * PI) 0) by (unfold off_half; rewrite EH, E; unfold vsub, vadd, vopp; cbn -[PI]; f_equal; ring).
  rewrite EH, EO, E. unfold vzero. split; [intros H; apply (f_equal vx) in H; cbn [vx] in H; lra|]. split; [intros H; apply (f_equal vx) in H; cbn [vx] in H; lra|]. split; [intros H; apply (f_equal vy) in H; cbn [vy] in H; lra|]. unfold vdot. cbn [vx vy vz]. assert (0 < PI * PI) by nra. field. nra.
Qed.

(** C40. With a local line of sight, set_rsd works exactly when no cell is at the observer, and what it adds is known for every field: the products of components
    along an axis taken for the Nyquist one and another axis are left out. *)
Theorem C40_local_exactly : forall freq neg box center n delta_k delta f, solid box ->
  ((exists out, eulerian_set_rsd freq neg box center n delta_k delta f None = Ok out) <-> forall x, within n x -> node box center n x <> vzero) /\
  forall out, eulerian_set_rsd freq neg box center n delta_k delta f None = Ok out -> forall x, within n x -> let r := node box center n x in
    out x = delta x + growth f r * (weighted freq box n (fun k => mu2 k r) delta_k x -
      2 * Rsum (map (fun k => let w := wave freq box n k in vdot (on_half n k w) r * vdot (off_half n k w) r / (vdot w w * vdot r r) * re (cmul (delta_k k) (expi (phase n k x)))) (cells n))).
Proof.
  intros freq neg box center n delta_k delta f SB.
  pose (num := match f with FNum f => f | FFun _ => 1 end).
  pose (extra := fun x => let r := node box center n x in weighted freq box n (fun k => mu2 k r) delta_k x -
      2 * Rsum (map (fun k => let w := wave freq box n k in vdot (on_half n k w) r * vdot (off_half n k w) r / (vdot w w * vdot r r) * re (cmul (delta_k k) (expi (phase n k x)))) (cells n))).
  set (cell := fun x => let r2 := vx (point neg box (corner box center) n x) ^ 2 + vy (point neg box (corner box center) n x) ^ 2 + vz (point neg box (corner box center) n x) ^ 2 in
        if Req_EM_T r2 0 then Err ZeroDivision else
        Ok (Rsum (map (fun p : nat * nat =>
          let '(i, j) := p in
          let factor := 1 + (if Nat.eqb i j then 0 else 1) in
          let factor := match f with FNum f => factor * f | FFun _ => factor end in
          factor * (c2r n (fun k => cscale (local_kernel n k (wave freq box n k) i j) (delta_k k)) x * (component (point neg box (corner box center) n x) i * component (point neg box (corner box center) n x) j / r2))) pairs))).
  assert (CELL : forall x, within n x -> cell x = if Req_EM_T (vdot (node box center n x) (node box center n x)) 0 then Err ZeroDivision else Ok (num * extra x)).
  { intros x Wx. unfold cell. cbv zeta. rewrite point_node by auto. unfold extra. set (r := node box center n x).
    assert (R2 : vx r ^ 2 + vy r ^ 2 + vz r ^ 2 = vdot r r) by (unfold vdot; ring). rewrite R2. destruct (Req_EM_T (vdot r r) 0) as [Z|Z]; auto. f_equal.
    transitivity (num * Rsum (map (fun k => (vdot (on_half n k (wave freq box n k)) r ^ 2 + vdot (off_half n k (wave freq box n k)) r ^ 2) / safe_k2 (wave freq box n k) / vdot r r * re (cmul (delta_k k) (expi (phase n k x)))) (cells n))).
    - transitivity (Rsum (map (fun p : nat * nat => let '(i, j) := p in let factor := 1 + (if Nat.eqb i j then 0 else 1) in
        (factor * num) * (Rsum (map (fun k => local_kernel n k (wave freq box n k) i j * re (cmul (delta_k k) (expi (phase n k x)))) (cells n)) * (component r i * component r j / vdot r r))) pairs)).
      + apply Rsum_map_ext. intros [i j] _. cbv zeta. f_equal; [unfold num; destruct f; ring|]. f_equal. apply c2r_scale.
      + unfold pairs. cbn [map Nat.eqb component]. unfold Rsum at 1. cbn [fold_right]. induction (cells n) as [|k l IH]; cbn [map Rsum fold_right] in *; [unfold Rsum; cbn; ring|]. unfold Rsum in *. cbn [fold_right] in *. rewrite (Rmult_plus_distr_l num), <- IH. clear IH.
        unfold off_half. rewrite on_half_eq. unfold local_kernel, local_mask. destruct (wave freq box n k) as [w1 w2 w3] eqn:Ew. destruct r as [x1 x2 x3]. unfold vsub, vadd, vopp, vdot. cbn [vx vy vz component].
        destruct (at_half n k 0), (at_half n k 1), (at_half n k 2); cbn [negb andb orb]; unfold Rdiv; ring.
    - f_equal. unfold weighted. rewrite <- Rsum_scale, Rsum_map_minus. apply Rsum_map_ext. intros k _. cbv zeta. set (v := re _). set (w := wave freq box n k).
      assert (S : vdot w r = vdot (on_half n k w) r + vdot (off_half n k w) r) by (unfold off_half; destruct (on_half n k w), w, r; unfold vdot, vsub, vadd, vopp; cbn; ring).
      unfold mu2, safe_k2. cbv zeta. rewrite S. destruct (Req_EM_T (vdot w w) 0) as [Zk|Zk].
      + assert (H1 : on_half n k w = vzero) by (rewrite on_half_eq, (k2_zero _ Zk); unfold vzero; cbn; repeat match goal with |- context [if ?b then 0 else 0] => destruct b end; auto).
        assert (H2 : off_half n k w = vzero) by (unfold off_half; rewrite H1, (k2_zero _ Zk); unfold vsub, vadd, vopp, vzero; cbn; f_equal; ring).
        rewrite H1, H2. replace (vdot vzero r) with 0 by (unfold vdot, vzero; cbn; ring). unfold Rdiv. ring.
      + field. split; auto. }
  assert (RUN : eulerian_set_rsd freq neg box center n delta_k delta f None =
    do total <- tabulate n cell 0; let total := match f with FFun f => fun x => total x * f (distance (point neg box (corner box center) n x)) | FNum _ => total end in Ok (fun x => delta x + total x)) by reflexivity.
  assert (WORKS : (forall x, within n x -> node box center n x <> vzero) -> exists h, tabulate n cell 0 = Ok h /\ forall x, within n x -> h x = num * extra x).
  { intros OB. apply tabulate_ok. intros x Wx. rewrite CELL by auto. destruct (Req_EM_T _ 0) as [Z|Z]; auto. exfalso. exact (OB x Wx (k2_zero _ Z)). }
  assert (FAILS : forall h, tabulate n cell 0 = Ok h -> forall x, within n x -> node box center n x <> vzero).
  { intros h H x Wx E. unfold tabulate in H. destruct (forallb _ (cells n)) eqn:A; [|discriminate]. rewrite forallb_forall in A. specialize (A x (proj2 (cells_In n x) Wx)). rewrite CELL in A by auto.
    destruct (Req_EM_T _ 0) as [Z|Z]; [discriminate|]. apply Z. apply sq_zero. auto. }
  split.
  - split.
    + intros (out & H). rewrite RUN in H. destruct (tabulate n cell 0) as [h|e] eqn:E; [|discriminate]. exact (FAILS h eq_refl).
    + intros OB. destruct (WORKS OB) as (h & H & _). rewrite RUN, H. eexists. reflexivity.
  - intros out H x Wx r. rewrite RUN in H. destruct (tabulate n cell 0) as [h|e] eqn:E; [|discriminate]. cbn [bind] in H. injection H as <-.
    destruct (WORKS (FAILS h eq_refl)) as (h' & E' & V). assert (h' = h) by congruence. subst h'. fold (extra x). destruct f as [f|f]; cbn [growth]; rewrite V by auto; unfold num; [auto|].
    rewrite point_node, distance_vnorm by auto. unfold vnorm. match goal with |- ?l = _ => change (l = delta x + f (sqrt (vdot r r)) * extra x) end. fold r. ring.
Qed.
Print Assumptions C40_local_exactly.
(** A box of sides 2 centred at (3, 3, 3), with a mesh of two cells a side: no cell is at the observer. The wave (1, 1, 0) is on two of these axes and the wave
    (1, 0, 0) on one: nothing is left out of either. On a mesh of five cells, the wave (2, 1, 0) has one component on them and one off. *)
Example C40_exact_case : solid (V 2 2 2) /\ (forall x, within (I 2 2 2) x -> node (V 2 2 2) (V 3 3 3) (I 2 2 2) x <> vzero) /\ (forall r, vdot (on_half (I 2 2 2) (I 1 1 0) (wave signed (V 2 2 2) (I 2 2 2) (I 1 1 0))) r * vdot (off_half (I 2 2 2) (I 1 1 0) (wave signed (V 2 2 2) (I 2 2 2) (I 1 1 0))) r = 0) /\ vdot (on_half (I 5 5 5) (I 2 1 0) (wave signed (V 1 1 1) (I 5 5 5) (I 2 1 0))) (V 1 1 0) * vdot (off_half (I 5 5 5) (I 2 1 0) (wave signed (V 1 1 1) (I 5 5 5) (I 2 1 0))) (V 1 1 0) <> 0.
Proof.
  split; [repeat split; cbn; lra|]. split; [|split].
  - intros x _ E. apply (f_equal vx) in E. unfold node, vzero in E. cbn [vx ix] in E. pose proof (pos_INR (ix x)). cbn in E. lra.
  - intros r. assert (E : off_half (I 2 2 2) (I 1 1 0) (wave signed (V 2 2 2) (I 2 2 2) (I 1 1 0)) = vzero).
    { unfold off_half. rewrite on_half_eq. unfold wave, signed, at_half, vsub, vadd, vopp, vzero. cbn -[PI]. f_equal; ring. }
    rewrite E. unfold vdot, vzero. cbn [vx vy vz]. ring.
  - pose proof PI_RGT_0. unfold off_half. rewrite on_half_eq. unfold wave, signed, at_half, vdot, vsub, vadd, vopp. cbn -[PI]. intros E. assert (PI * PI = 0) by nra. nra.
Qed.
