(** Change of unit: the functions of mocks. *)
Require Import Reals Lra Lia ZArith String List Bool FunctionalExtensionality.
From Verif Require Import Base Vec3 Isometry_Model Sky_Model Cutsky_Model Box_Model Rsd_Model Mock_Model Mesh_Model Remap_Model Unit_Spec Density_Proof Ens_Proof.
Import ListNotations.
Open Scope R_scope.

Section Proof.
  Variable s : R.
  Hypothesis Hs : 0 < s.

  Lemma s_neq : s <> 0. Proof. lra. Qed.
  Lemma s3_pos : 0 < s ^ 3. Proof. apply pow_lt; auto. Qed.
  Lemma s3_neq : s ^ 3 <> 0. Proof. pose proof s3_pos; lra. Qed.
  Lemma div_s : forall d, s * d / s = d. Proof. intros. field. apply s_neq. Qed.

  Lemma vscale_add : forall k a b, vadd (vscale k a) (vscale k b) = vscale k (vadd a b). Proof. vring. Qed.
  Lemma vscale_sub : forall k a b, vsub (vscale k a) (vscale k b) = vscale k (vsub a b). Proof. vring. Qed.
  Lemma vscale_swap : forall k l a, vscale k (vscale l a) = vscale l (vscale k a). Proof. vring. Qed.
  Lemma vmul_scale : forall k a b, vmul a (vscale k b) = vscale k (vmul a b). Proof. vring. Qed.
  Lemma vmul_scale_l : forall k a b, vmul (vscale k a) b = vscale k (vmul a b). Proof. vring. Qed.

  (** Comparisons. *)
  Lemma lt_scale : forall a b, s * a < s * b <-> a < b.
  Proof. intros; split; [apply Rmult_lt_reg_l; auto|apply Rmult_lt_compat_l; auto]. Qed.
  Lemma le_scale : forall a b, s * a <= s * b <-> a <= b.
  Proof. intros; split; [apply Rmult_le_reg_l; auto|apply Rmult_le_compat_l; lra]. Qed.
  Lemma eq_scale : forall a b, s * a = s * b <-> a = b.
  Proof. intros; split; [intro H; apply (Rmult_eq_reg_l s); [exact H|apply s_neq]|congruence]. Qed.
  Lemma Rltb_scale : forall a b, Rltb (s * a) (s * b) = Rltb a b.
  Proof. intros. unfold Rltb. destruct (Rlt_dec (s * a) (s * b)) as [H|H], (Rlt_dec a b) as [K|K]; auto; rewrite lt_scale in H; contradiction. Qed.
  Lemma Rleb_scale : forall a b, Rleb (s * a) (s * b) = Rleb a b.
  Proof. intros. unfold Rleb. destruct (Rle_dec (s * a) (s * b)) as [H|H], (Rle_dec a b) as [K|K]; auto; rewrite le_scale in H; contradiction. Qed.
  Lemma Rltb_scale0 : forall a, Rltb (s * a) 0 = Rltb a 0.
  Proof. intros. rewrite <- (Rmult_0_r s) at 1. apply Rltb_scale. Qed.
  Lemma Rmod_scale : forall x m, Rmod (s * x) (s * m) = s * Rmod x m.
  Proof.
    intros. unfold Rmod. replace (s * x / (s * m)) with (x / m). ring.
    destruct (Req_EM_T m 0) as [->|Hm]. rewrite Rmult_0_r. unfold Rdiv. rewrite Rinv_0. ring. field. split; [auto|apply s_neq].
  Qed.

  (** Distances and angles. *)
  Lemma distance_scale : forall p, distance (vscale s p) = s * distance p.
  Proof.
    intros [x y z]. unfold distance, vscale; cbn [vx vy vz].
    replace ((s * x) ^ 2 + (s * y) ^ 2 + (s * z) ^ 2) with (s ^ 2 * (x ^ 2 + y ^ 2 + z ^ 2)) by ring.
    rewrite sqrt_mult by nra. rewrite sqrt_pow2 by lra. reflexivity.
  Qed.
  Lemma ratio_scale : forall a b, s * a / (s * b) = a / b.
  Proof. intros. destruct (Req_EM_T b 0) as [->|Hb]. rewrite Rmult_0_r. unfold Rdiv. rewrite Rinv_0. ring. field. split; [auto|apply s_neq]. Qed.
  Lemma pos_scale : forall a, 0 < s * a <-> 0 < a.
  Proof. intros. rewrite <- (Rmult_0_r s) at 1. apply lt_scale. Qed.
  Lemma neg_scale : forall a, s * a < 0 <-> a < 0.
  Proof. intros. rewrite <- (Rmult_0_r s) at 1. apply lt_scale. Qed.
  Lemma arctan2_scale : forall y x, arctan2 (s * y) (s * x) = arctan2 y x.
  Proof.
    intros. unfold arctan2. rewrite ratio_scale.
    repeat match goal with |- context [Rlt_dec ?a ?b] => destruct (Rlt_dec a b) as [?H|?H] end; auto; exfalso;
    repeat match goal with H : context [s * _] |- _ => first [rewrite pos_scale in H | rewrite neg_scale in H] end; contradiction.
  Qed.
  Lemma sky_scale : forall deg p, cartesian_to_sky deg (vscale s p) = result_map (fun x => (s * fst (fst x), snd (fst x), snd x)) (cartesian_to_sky deg p).
  Proof.
    intros. unfold cartesian_to_sky. rewrite distance_scale. cbn [vscale vx vy vz]. rewrite arctan2_scale, ratio_scale.
    destruct (Req_EM_T (s * distance p) 0) as [H|H], (Req_EM_T (distance p) 0) as [K|K]; cbn; auto; exfalso.
    - apply Rmult_integral in H. pose proof s_neq. tauto.
    - apply H. rewrite K. ring.
  Qed.

  (** Meshes. *)
  Lemma wave_scale : forall freq box n k, wave freq (vscale s box) n k = vscale (/ s) (wave freq box n k).
  Proof. intros. unfold wave, vscale; cbn [vx vy vz]. unfold Rdiv. rewrite !Rinv_mult. f_equal; ring. Qed.
  Lemma cell_size_scale : forall box n, cell_size (vscale s box) n = vscale s (cell_size box n).
  Proof. intros. unfold cell_size, vscale; cbn [vx vy vz]. unfold Rdiv. f_equal; ring. Qed.
  Lemma corner_scale : forall box center, corner (vscale s box) (vscale s center) = vscale s (corner box center).
  Proof. intros. unfold corner, vscale; cbn [vx vy vz]. f_equal; lra. Qed.
  Lemma slab_scale : forall neg b n i, transform_rslab (slab_x neg (s * b) n i) (s * b) = s * transform_rslab (slab_x neg b n i) b.
  Proof.
    intros. unfold transform_rslab. replace (slab_x neg (s * b) n i) with (s * slab_x neg b n i) by (unfold slab_x, Rdiv; destruct (neg n i); ring).
    rewrite Rltb_scale0. destruct (Rltb _ _); ring.
  Qed.
  Lemma point_scale : forall neg box offset n x, point neg (vscale s box) (vscale s offset) n x = vscale s (point neg box offset n x).
  Proof. intros. unfold point. cbn [vscale vx vy vz]. rewrite !slab_scale. unfold vscale; cbn [vx vy vz]. f_equal; ring. Qed.
  Lemma tabulate_map : forall {A B} n (f : idx -> result A) (f' : idx -> result B) (h : A -> B) d d', (forall x, f' x = result_map h (f x)) -> d' = h d ->
    tabulate n f' d' = result_map (fun g x => h (g x)) (tabulate n f d).
  Proof.
    intros A B n f f' h d d' Hf ->. unfold tabulate.
    replace (forallb (fun x => is_ok (f' x)) (cells n)) with (forallb (fun x => is_ok (f x)) (cells n)).
    destruct (forallb _ _); cbn; auto. f_equal. extensionality x. rewrite Hf. destruct (f x); reflexivity.
    f_equal. extensionality x. rewrite Hf. destruct (f x); reflexivity.
  Qed.
  Lemma tabulate_same : forall {A} n (f f' : idx -> result A) d, (forall x, f' x = f x) -> tabulate n f' d = tabulate n f d.
  Proof. intros A n f f' d H. f_equal. extensionality x. apply H. Qed.
  Lemma c2r_scale : forall n t c x, c2r n (fun k => cscale t (c k)) x = t * c2r n c x.
  Proof.
    intros. unfold c2r. rewrite <- (Rsum_scale t (fun k => re (cmul (c k) (expi (phase n k x))))). apply Rsum_map_ext. intros k _. destruct (c k). cbn. ring.
  Qed.
  Lemma r2c_scale : forall n t f k, r2c n (fun x => f x * t) k = cscale t (r2c n f k).
  Proof.
    intros. unfold r2c, cscale; cbn [re im]. f_equal.
    - rewrite (Rsum_map_ext _ (fun x => t * (f x * cos (phase n k x)))) by (intros; ring).
      rewrite (Rsum_scale t (fun x => f x * cos (phase n k x))). ring.
    - rewrite (Rsum_map_ext _ (fun x => t * (f x * - sin (phase n k x)))) by (intros; ring).
      rewrite (Rsum_scale t (fun x => f x * - sin (phase n k x))). ring.
  Qed.

  (** Fields. *)
  Lemma is_zero_vec : forall w, vdot w w = 0 -> w = vzero. Proof. apply vdot_self_zero. Qed.
  Lemma norm_scale : forall w, sqrt (vdot (vscale (/ s) w) (vscale (/ s) w)) = / s * sqrt (vdot w w).
  Proof.
    intros. rewrite vdot_scale_l, vdot_scale_r, <- Rmult_assoc. rewrite sqrt_mult_alt by (pose proof (Rinv_0_lt_compat s Hs); nra).
    replace (/ s * / s) with ((/ s) ^ 2) by ring. rewrite sqrt_pow2; auto. pose proof (Rinv_0_lt_compat s Hs); lra.
  Qed.
  Lemma mode_power_scale : forall p los w, mode_power (power_u s p) los (vscale (/ s) w) = s ^ 3 * mode_power p los w.
  Proof.
    intros. unfold mode_power. rewrite norm_scale. pose proof s_neq as Ns. pose proof (Rinv_neq_0_compat _ Ns) as Ni.
    destruct (Req_EM_T (/ s * sqrt (vdot w w)) 0) as [H|H], (Req_EM_T (sqrt (vdot w w)) 0) as [K|K]; cbv zeta.
    - ring.
    - apply Rmult_integral in H. tauto.
    - rewrite K, Rmult_0_r in H. lra.
    - unfold power_u. replace (s * (/ s * sqrt (vdot w w))) with (sqrt (vdot w w)) by (field; auto).
      destruct los; auto. rewrite vdot_scale_l. do 3 f_equal. field. auto.
  Qed.
  Lemma complex_scale : forall freq box n p los noise inv,
    set_complex_delta_field freq (vscale s box) n (power_u s p) los noise inv = set_complex_delta_field freq box n p los noise inv.
  Proof.
    intros. unfold set_complex_delta_field. pose proof s3_neq as N3. pose proof s_neq as Ns. cbn [vscale vx vy vz].
    replace (s * vx box * (s * vy box) * (s * vz box)) with (s ^ 3 * (vx box * vy box * vz box)) by ring. unfold fdiv.
    destruct (Req_EM_T (s ^ 3 * (vx box * vy box * vz box)) 0) as [H|H], (Req_EM_T (vx box * vy box * vz box) 0) as [K|K]; cbn [bind]; auto.
    - apply Rmult_integral in H. tauto.
    - rewrite K, Rmult_0_r in H. lra.
    - apply tabulate_same. intros k. cbv zeta. rewrite wave_scale, mode_power_scale.
      replace (s ^ 3 * mode_power p los (wave freq box n k) * (1 / (s ^ 3 * (vx box * vy box * vz box)))) with (mode_power p los (wave freq box n k) * (1 / (vx box * vy box * vz box)))
        by (field; repeat split; auto; intro Z; apply K; rewrite Z; ring).
      reflexivity.
  Qed.
  Lemma real_scale : forall neg box center n dk bias lognormal,
    set_real_delta_field neg (vscale s box) (vscale s center) n dk (option_map (bias_u s) bias) lognormal = set_real_delta_field neg box center n dk bias lognormal.
  Proof.
    intros. unfold set_real_delta_field. destruct bias as [[b|b]|]; cbn [option_map bias_u]; auto.
    set (F := fun g : idx -> R => if lognormal then do m <- mean n (fun x => exp (g x)); Ok (fun x => exp (g x) / m - 1) else Ok g).
    change (F (fun x => b (c2r n dk x) (distance (point neg (vscale s box) (corner (vscale s box) (vscale s center)) n x) / s)) =
      F (fun x => b (c2r n dk x) (distance (point neg box (corner box center) n x)))). f_equal.
    extensionality x. rewrite corner_scale, point_scale, distance_scale, div_s. reflexivity.
  Qed.
  Lemma k2_scale : forall w, vdot (vscale (/ s) w) (vscale (/ s) w) = vdot w w / s ^ 2.
  Proof. intros. rewrite vdot_scale_l, vdot_scale_r. field. apply s_neq. Qed.
  Lemma safe_scale : forall w, w <> vzero -> safe_k2 (vscale (/ s) w) = safe_k2 w / s ^ 2.
  Proof.
    intros w H. unfold safe_k2. rewrite k2_scale. pose proof s_neq as Ns.
    assert (K : vdot w w <> 0) by (intro Z; apply H, vdot_self_zero, Z).
    destruct (Req_EM_T (vdot w w / s ^ 2) 0) as [Z|Z], (Req_EM_T (vdot w w) 0); try contradiction; auto.
    exfalso. apply K. apply (Rmult_eq_reg_r (/ s ^ 2)). unfold Rdiv in Z. lra. apply Rinv_neq_0_compat, pow_nonzero; auto.
  Qed.
  Lemma safe_pos : forall w, 0 < safe_k2 w.
  Proof. intros. unfold safe_k2. destruct (Req_EM_T (vdot w w) 0); [lra|]. pose proof (vdot_self_nonneg w); lra. Qed.
  Lemma component_scale : forall t w i, component (vscale t w) i = t * component w i.
  Proof. intros t w [|[|i]]; reflexivity. Qed.
  Lemma component_zero : forall i, component vzero i = 0. Proof. intros [|[|i]]; reflexivity. Qed.
  Lemma fixed_scale : forall w l, fixed_kernel (vscale (/ s) w) l = fixed_kernel w l.
  Proof.
    intros. destruct (vec_dec w vzero) as [->|H]. rewrite vscale_zero. auto.
    unfold fixed_kernel. rewrite safe_scale by auto. f_equal. rewrite vdot_scale_l. pose proof s_neq. pose proof (sqrt_lt_R0 _ (safe_pos w)).
    rewrite sqrt_div_alt by (apply pow_lt; auto). rewrite sqrt_pow2 by lra. field. split; lra.
  Qed.
  Lemma local_scale : forall n k w i j, local_kernel n k (vscale (/ s) w) i j = local_kernel n k w i j.
  Proof.
    intros. destruct (vec_dec w vzero) as [->|H]. rewrite vscale_zero. auto.
    unfold local_kernel. rewrite safe_scale, !component_scale by auto. f_equal. pose proof (safe_pos w). field. split; [lra|apply s_neq].
  Qed.
  Lemma eulerian_scale : forall freq neg box center n dk d f los,
    eulerian_set_rsd freq neg (vscale s box) (vscale s center) n dk d (factor_u s f) los = eulerian_set_rsd freq neg box center n dk d f los.
  Proof.
    intros. unfold eulerian_set_rsd. cbv zeta.
    assert (P : forall x, point neg (vscale s box) (corner (vscale s box) (vscale s center)) n x = vscale s (point neg box (corner box center) n x))
      by (intros; rewrite corner_scale; apply point_scale).
    assert (T : match los with
      | Some a => do l <- get_los a; Ok (match factor_u s f with FNum f => fun x => c2r n (fun k => cscale (fixed_kernel (wave freq (vscale s box) n k) l) (dk k)) x * f
                                           | FFun _ => c2r n (fun k => cscale (fixed_kernel (wave freq (vscale s box) n k) l) (dk k)) end)
      | None => tabulate n (fun x =>
        if Req_EM_T (vx (point neg (vscale s box) (corner (vscale s box) (vscale s center)) n x) ^ 2 + vy (point neg (vscale s box) (corner (vscale s box) (vscale s center)) n x) ^ 2 +
           vz (point neg (vscale s box) (corner (vscale s box) (vscale s center)) n x) ^ 2) 0 then Err ZeroDivision else
        Ok (Rsum (map (fun p =>
          let '(i, j) := p in
          match factor_u s f with FNum f => (1 + (if Nat.eqb i j then 0 else 1)) * f | FFun _ => 1 + (if Nat.eqb i j then 0 else 1) end *
          (c2r n (fun k => cscale (local_kernel n k (wave freq (vscale s box) n k) i j) (dk k)) x *
            (component (point neg (vscale s box) (corner (vscale s box) (vscale s center)) n x) i * component (point neg (vscale s box) (corner (vscale s box) (vscale s center)) n x) j /
             (vx (point neg (vscale s box) (corner (vscale s box) (vscale s center)) n x) ^ 2 + vy (point neg (vscale s box) (corner (vscale s box) (vscale s center)) n x) ^ 2 +
              vz (point neg (vscale s box) (corner (vscale s box) (vscale s center)) n x) ^ 2)))) pairs))) 0
      end = match los with
      | Some a => do l <- get_los a; Ok (match f with FNum f => fun x => c2r n (fun k => cscale (fixed_kernel (wave freq box n k) l) (dk k)) x * f
                                           | FFun _ => c2r n (fun k => cscale (fixed_kernel (wave freq box n k) l) (dk k)) end)
      | None => tabulate n (fun x =>
        if Req_EM_T (vx (point neg box (corner box center) n x) ^ 2 + vy (point neg box (corner box center) n x) ^ 2 + vz (point neg box (corner box center) n x) ^ 2) 0 then Err ZeroDivision else
        Ok (Rsum (map (fun p =>
          let '(i, j) := p in
          match f with FNum f => (1 + (if Nat.eqb i j then 0 else 1)) * f | FFun _ => 1 + (if Nat.eqb i j then 0 else 1) end *
          (c2r n (fun k => cscale (local_kernel n k (wave freq box n k) i j) (dk k)) x *
            (component (point neg box (corner box center) n x) i * component (point neg box (corner box center) n x) j /
             (vx (point neg box (corner box center) n x) ^ 2 + vy (point neg box (corner box center) n x) ^ 2 + vz (point neg box (corner box center) n x) ^ 2)))) pairs))) 0
      end).
    { destruct los as [a|].
      - destruct (get_los a) as [l|e]; cbn [bind]; auto.
        replace (fun k => cscale (fixed_kernel (wave freq (vscale s box) n k) l) (dk k)) with (fun k => cscale (fixed_kernel (wave freq box n k) l) (dk k))
          by (extensionality k; rewrite wave_scale, fixed_scale; reflexivity).
        destruct f; reflexivity.
      - apply tabulate_same. intros x. rewrite P. set (q := point neg box (corner box center) n x). cbn [vscale vx vy vz].
        assert (E : (s * vx q) ^ 2 + (s * vy q) ^ 2 + (s * vz q) ^ 2 = s ^ 2 * (vx q ^ 2 + vy q ^ 2 + vz q ^ 2)) by ring. rewrite E.
        assert (N2 : s ^ 2 <> 0) by (apply pow_nonzero, s_neq).
        destruct (Req_EM_T (s ^ 2 * (vx q ^ 2 + vy q ^ 2 + vz q ^ 2)) 0) as [H|H], (Req_EM_T (vx q ^ 2 + vy q ^ 2 + vz q ^ 2) 0) as [K|K]; auto.
        { apply Rmult_integral in H; tauto. }
        { rewrite K, Rmult_0_r in H; lra. }
        f_equal. apply Rsum_map_ext. intros [i j] _.
        replace (fun k => cscale (local_kernel n k (wave freq (vscale s box) n k) i j) (dk k)) with (fun k => cscale (local_kernel n k (wave freq box n k) i j) (dk k))
          by (extensionality k; rewrite wave_scale, local_scale; reflexivity).
        f_equal. destruct f; reflexivity. f_equal. change (V (s * vx q) (s * vy q) (s * vz q)) with (vscale s q). rewrite !component_scale. field. split; [auto|apply s_neq]. }
    rewrite T. clear T. destruct (match los with Some a => _ | None => _ end); cbn [bind]; auto. f_equal.
    extensionality x. f_equal. destruct f; cbn [factor_u]; auto. rewrite P, distance_scale, div_s. reflexivity.
  Qed.
  Lemma displacement_scale : forall freq box n dk i x, displacement freq (vscale s box) n dk i x = s * displacement freq box n dk i x.
  Proof.
    intros. unfold displacement. rewrite <- c2r_scale. f_equal. extensionality k. unfold displacement_k. rewrite wave_scale.
    set (w := wave freq box n k). replace (component (vscale (/ s) w) i / safe_k2 (vscale (/ s) w)) with (s * (component w i / safe_k2 w)).
    - unfold cmul, cscale; cbn [re im]. f_equal; ring.
    - destruct (vec_dec w vzero) as [->|H]. rewrite vscale_zero, component_zero. unfold Rdiv; ring.
      rewrite safe_scale, component_scale by auto. pose proof (safe_pos w). field. split; lra.
  Qed.

  (** Densities. *)
  Lemma paint_scale : forall neg box offset n (nbar : R -> R -> R -> R),
    paint neg (vscale s box) (vscale s offset) n (fun d ra dec => nbar (d / s) ra dec / s ^ 3) = result_map (fun m x => m x / s ^ 3) (paint neg box offset n nbar).
  Proof.
    intros. unfold paint. apply (tabulate_map n _ _ (fun a => a / s ^ 3)).
    - intros x. rewrite point_scale, sky_scale. destruct (cartesian_to_sky true (point neg box offset n x)) as [[[d ra] dec]|e]; cbn; auto. rewrite div_s. reflexivity.
    - unfold Rdiv; ring.
  Qed.
  Lemma interlace_scale : forall freq neg box n (nbar : R -> R -> R -> R) ord todo offset i acc,
    interlace freq neg (vscale s box) (vscale s offset) n (fun d ra dec => nbar (d / s) ra dec / s ^ 3) ord i todo (fun k => cscale (/ s ^ 3) (acc k)) =
    result_map (fun a k => cscale (/ s ^ 3) (a k)) (interlace freq neg box offset n nbar ord i todo acc).
  Proof.
    intros freq neg box n nbar ord todo. induction todo as [|todo IH]; intros offset i acc; cbn [interlace]; auto.
    rewrite cell_size_scale, (vscale_swap (1 / 2) s), vscale_sub, paint_scale.
    destruct (paint neg box (vsub offset (vscale (1 / 2) (cell_size box n))) n nbar) as [m|e]; cbn [bind result_map]; auto.
    rewrite <- IH. f_equal. extensionality k. unfold Rdiv. rewrite (r2c_scale n (/ s ^ 3) m), wave_scale, vdot_scale_l, vdot_scale_r.
    replace (/ s * (s * vdot (wave freq box n k) (cell_size box n))) with (vdot (wave freq box n k) (cell_size box n)) by (field; apply s_neq).
    unfold cadd, cmul, cscale; cbn [re im]. f_equal; ring.
  Qed.
  Lemma selection_scale : forall freq neg box center n (nbar : R -> R -> R -> R) interlacing,
    set_selection freq neg (vscale s box) (vscale s center) n (fun d ra dec => nbar (d / s) ra dec / s ^ 3) interlacing =
    result_map (fun m x => m x / s ^ 3) (set_selection freq neg box center n nbar interlacing).
  Proof.
    intros. unfold set_selection. rewrite corner_scale, paint_scale. destruct (paint neg box (corner box center) n nbar) as [m|e]; cbn [bind result_map]; auto.
    destruct interlacing as [|i]; auto. set (ord := if Nat.eqb (S i) 1 then 2%nat else S i).
    replace (r2c n (fun x => m x / s ^ 3)) with (fun k => cscale (/ s ^ 3) (r2c n m k)) by (extensionality k; symmetry; apply r2c_scale).
    rewrite interlace_scale. destruct (interlace freq neg box (corner box center) n nbar ord 1 (ord - 1) (r2c n m)) as [a|e]; cbn [bind result_map]; auto.
    f_equal. extensionality x. rewrite c2r_scale. unfold Rdiv; ring.
  Qed.
  Lemma volume_scale : forall box n, vx (cell_size (vscale s box) n) * vy (cell_size (vscale s box) n) * vz (cell_size (vscale s box) n) =
    s ^ 3 * (vx (cell_size box n) * vy (cell_size box n) * vz (cell_size box n)).
  Proof. intros. rewrite cell_size_scale. cbn [vscale vx vy vz]. ring. Qed.
  Lemma select_scale : forall freq neg m nbar interlacing,
    select_density freq neg (mock_u s m) (nbar_u s nbar) interlacing = result_map (fun x => (field_u s (fst x), snd x / s ^ 3)) (select_density freq neg m nbar interlacing).
  Proof.
    intros. unfold select_density. cbn [mock_u m_box m_n m_center]. rewrite volume_scale. pose proof s3_neq as N3. pose proof s_neq as Ns.
    destruct nbar as [a|f]; cbn [nbar_u].
    - cbn [result_map fst snd field_u]. do 2 f_equal. field. auto.
    - rewrite selection_scale. destruct (set_selection freq neg (m_box m) (m_center m) (m_n m) f interlacing) as [b|e]; cbn [bind result_map fst snd field_u]; auto.
      do 2 f_equal. rewrite (Rsum_map_ext (fun x => (b x / s ^ 3) ^ 2) (fun x => (/ s ^ 3) ^ 2 * b x ^ 2)) by (intros; field; auto).
      rewrite (Rsum_scale ((/ s ^ 3) ^ 2) (fun x => b x ^ 2)). field. auto.
  Qed.
  Lemma times_scale : forall b g x, times (field_u s b) g x = times b g x / s ^ 3.
  Proof. intros [a|f] g x; cbn; unfold Rdiv; ring. Qed.
  Lemma noise_scale : forall m noise, white_noise (mock_u s m) noise = white_noise m noise.
  Proof.
    intros. unfold white_noise. cbn [mock_u m_box m_n m_delta_r m_nbar]. destruct (m_delta_r m) as [d|]; cbn [attribute bind]; auto.
    destruct (m_nbar m) as [b|]; cbn [option_map attribute bind]; auto.
    apply tabulate_same. intros x. cbv zeta. rewrite volume_scale, times_scale.
    assert (T : forall t, times b (fun _ => s ^ 3 * t) x / s ^ 3 = times b (fun _ => t) x) by (intros; destruct b; cbn [times]; field; apply s_neq).
    rewrite T. reflexivity.
  Qed.

  (** Drawing objects. *)
  Lemma grid_scale : forall box n x, grid_point (vscale s box) n x = vscale s (grid_point box n x).
  Proof. intros. unfold grid_point, vscale; cbn [vx vy vz]. unfold Rdiv. f_equal; ring. Qed.
  Lemma insert_map : forall {A B} (h : A -> B) x l, insert (fst x, h (snd x)) (map (fun y => (fst y, h (snd y))) l) = map (fun y => (fst y, h (snd y))) (insert x l).
  Proof. intros A B h x l. induction l as [|y l IH]; cbn; auto. destruct (Nat.leb (fst x) (fst y)); cbn; auto. rewrite IH. reflexivity. Qed.
  Lemma sort_map : forall {A B} (h : A -> B) l, sort_by_id (map (fun y => (fst y, h (snd y))) l) = map h (sort_by_id l).
  Proof.
    intros A B h l. unfold sort_by_id.
    assert (E : fold_right insert [] (map (fun y => (fst y, h (snd y))) l) = map (fun y => (fst y, h (snd y))) (fold_right insert [] l)).
    { induction l as [|x l IH]; cbn; auto. rewrite IH. apply insert_map. }
    rewrite E, !map_map. reflexivity.
  Qed.
  Lemma repeat_map : forall {A B} (h : A -> B) x k, repeat (h x) k = map h (repeat x k).
  Proof. intros A B h x k. induction k; cbn; congruence. Qed.
  Lemma flat_map_map : forall {A B C} (h : B -> C) (f : A -> list B) l, flat_map (fun a => map h (f a)) l = map h (flat_map f l).
  Proof. intros A B C h f l. induction l; cbn; auto. rewrite map_app. congruence. Qed.
  Lemma combine_map2 : forall {A B C D} (f : A -> C) (g : B -> D) la lb, combine (map f la) (map g lb) = map (fun x => (f (fst x), g (snd x))) (combine la lb).
  Proof. intros A B C D f g la. induction la as [|a la IH]; intros [|b lb]; cbn; auto. rewrite IH. reflexivity. Qed.
  Lemma sample_scale : forall box center n d b poisson parts uniform,
    poisson_sample (vscale s box) (vscale s center) n d (fun x => b x / s ^ 3) poisson parts uniform =
    result_map (map (vscale s)) (poisson_sample box center n d b poisson parts uniform).
  Proof.
    intros. unfold poisson_sample. cbv zeta. rewrite volume_scale.
    replace (map (fun x => (1 + d x) * (b x / s ^ 3) * (s ^ 3 * (vx (cell_size box n) * vy (cell_size box n) * vz (cell_size box n)))) (cells n))
      with (map (fun x => (1 + d x) * b x * (vx (cell_size box n) * vy (cell_size box n) * vz (cell_size box n))) (cells n))
      by (apply map_ext; intros; field; apply s_neq).
    set (lam := map _ (cells n)). destruct (forallb (fun l => Rleb 0 l) lam); cbn [result_map]; auto. f_equal.
    replace (flat_map (fun part => flat_map (fun x => repeat (cell_id n x, grid_point (vscale s box) n x) (nth (cell_id n x) (poisson lam) 0%nat)) part) parts)
      with (map (fun y => (fst y, vscale s (snd y))) (flat_map (fun part => flat_map (fun x => repeat (cell_id n x, grid_point box n x) (nth (cell_id n x) (poisson lam) 0%nat)) part) parts)).
    - rewrite sort_map, map_length. rewrite (map_ext (fun u => vmul u (cell_size (vscale s box) n)) (fun u => vscale s (vmul u (cell_size box n)))).
      2: { intros u. rewrite cell_size_scale. apply vmul_scale. }
      rewrite <- (map_map (fun u => vmul u (cell_size box n)) (vscale s)), combine_map2, !map_map. apply map_ext. intros [p u]. cbn [fst snd].
      rewrite corner_scale, !vscale_add. reflexivity.
    - rewrite <- flat_map_map. apply flat_map_ext. intros part. rewrite <- flat_map_map. apply flat_map_ext. intros x.
      rewrite <- (repeat_map (fun y : nat * vec => (fst y, vscale s (snd y)))). cbn [fst snd]. rewrite grid_scale. reflexivity.
  Qed.
  Lemma wrap_scale : forall box offset p, wrap (vscale s box) (vscale s offset) (vscale s p) = vscale s (wrap box offset p).
  Proof. intros. unfold wrap, vscale; cbn [vx vy vz]. rewrite <- !Rmult_minus_distr_l, !Rmod_scale. f_equal; ring. Qed.

  (** Readouts. *)
  Lemma readout_at_scale : forall pm pm' n r f p, same_pmesh s pm pm' -> readout_at pm' n r f (vscale s p) = readout_at pm n r f p.
  Proof.
    intros pm pm' n r f p (K & P & W & T). unfold readout_at. rewrite P. apply Rsum_map_ext. intros [j part] _. cbn [fst snd]. rewrite T.
    destruct (sent pm r p j); auto. apply Rsum_map_ext. intros x _. rewrite W. reflexivity.
  Qed.
  Lemma readout_at_linear : forall pm n r t f p, readout_at pm n r (fun x => t * f x) p = t * readout_at pm n r f p.
  Proof.
    intros. unfold readout_at. rewrite <- (Rsum_scale t (fun jpart : nat * list idx => if sent pm r p (fst jpart) then Rsum (map (fun x => weight pm r n p x * f x) (snd jpart)) else 0)).
    apply Rsum_map_ext. intros [j part] _. cbn [fst snd]. destruct (sent pm r p j); [|ring].
    rewrite <- (Rsum_scale t (fun x => weight pm r n p x * f x)). apply Rsum_map_ext. intros; ring.
  Qed.
  Lemma box_units : forall p center box, vadd (vsub (vscale s p) (vscale s center)) (vscale (1 / 2) (vscale s box)) = vscale s (vadd (vsub p center) (vscale (1 / 2) box)).
  Proof. vring. Qed.
  Lemma compensate_scale : forall freq box n r t f, compensate_mesh freq (vscale s box) n r (fun x => t * f x) = result_map (fun m x => t * m x) (compensate_mesh freq box n r f).
  Proof.
    intros. unfold compensate_mesh. destruct (order r) as [p|]; auto.
    rewrite (tabulate_map n (fun k => if Req_EM_T (window p (vmul (wave freq box n k) (cell_size box n))) 0 then Err ZeroDivision
      else Ok (cscale (/ window p (vmul (wave freq box n k) (cell_size box n))) (r2c n f k))) _ (cscale t) (Cx 0 0) (Cx 0 0)).
    - destruct (tabulate _ _ _) as [m|e]; cbn [bind result_map]; auto. f_equal. extensionality x. apply c2r_scale.
    - intros k. cbv zeta. rewrite wave_scale, cell_size_scale.
      replace (vmul (vscale (/ s) (wave freq box n k)) (vscale s (cell_size box n))) with (vmul (wave freq box n k) (cell_size box n))
        by (unfold vmul, vscale; cbn [vx vy vz]; f_equal; field; apply s_neq).
      destruct (Req_EM_T _ 0); cbn [result_map]; auto. f_equal.
      replace (fun x => t * f x) with (fun x => f x * t) by (extensionality x; ring). rewrite r2c_scale. unfold cscale; cbn [re im]. f_equal; ring.
    - unfold cscale; cbn [re im]. f_equal; ring.
  Qed.
End Proof.
