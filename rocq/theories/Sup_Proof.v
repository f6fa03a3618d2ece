(** Proofs for Sup_Thm.v. *)
Require Import Reals Lra Lia ZArith String List Bool.
From Verif Require Import Base Vec3 Isometry_Model Sky_Model Cutsky_Model Box_Model Rsd_Model Mock_Model Mesh_Model Sup_Spec.
Import ListNotations.
Open Scope R_scope.

Lemma sum_comb : forall {A} a b (f g h : A -> R) l, (forall x, In x l -> h x = a * f x + b * g x) -> Rsum (map h l) = a * Rsum (map f l) + b * Rsum (map g l).
Proof. intros A a b f g h l. induction l as [|x l IH]; intros H; [cbn; ring|]. cbn [map]. assert (E : forall t s, Rsum (t :: s) = t + Rsum s) by reflexivity. rewrite !E, (H x (or_introl eq_refl)), IH by (intros; apply H; right; auto). ring. Qed.
Lemma c2r_comb : forall a b n f g h, combined_modes a b f g h -> combined a b (c2r n f) (c2r n g) (c2r n h).
Proof. intros a b n f g h H x. unfold c2r. apply sum_comb. intros k _. destruct (H k) as [A B]. unfold cmul, expi; cbn. rewrite A, B. ring. Qed.
Lemma r2c_comb : forall a b n f g h, combined a b f g h -> combined_modes a b (r2c n f) (r2c n g) (r2c n h).
Proof.
  intros a b n f g h H k. unfold r2c; cbn. split.
  - rewrite (sum_comb a b (fun x => f x * cos (phase n k x)) (fun x => g x * cos (phase n k x))); [ring|]. intros x _. rewrite (H x). ring.
  - rewrite (sum_comb a b (fun x => f x * - sin (phase n k x)) (fun x => g x * - sin (phase n k x))); [ring|]. intros x _. rewrite (H x). ring.
Qed.
Lemma cscale_comb : forall a b f g h (t : idx -> R), combined_modes a b f g h -> combined_modes a b (fun k => cscale (t k) (f k)) (fun k => cscale (t k) (g k)) (fun k => cscale (t k) (h k)).
Proof. intros a b f g h t H k. destruct (H k) as [A B]. cbn. rewrite A, B. split; ring. Qed.
Lemma cmul_comb : forall a b f g h (t : idx -> cplx), combined_modes a b f g h -> combined_modes a b (fun k => cmul (f k) (t k)) (fun k => cmul (g k) (t k)) (fun k => cmul (h k) (t k)).
Proof. intros a b f g h t H k. destruct (H k) as [A B]. cbn. rewrite A, B. split; ring. Qed.

(** Values on a mesh that are errors in the same cells. *)
Lemma tabulate_comb : forall {A} (P : (idx -> A) -> (idx -> A) -> (idx -> A) -> Prop) (R : A -> A -> A -> Prop) n (f g h : idx -> result A) d,
  (forall x, all_or_error R (f x) (g x) (h x)) -> (forall u v w, (forall x, R (u x) (v x) (w x)) -> P u v w) -> R d d d -> all_or_error P (tabulate n f d) (tabulate n g d) (tabulate n h d).
Proof.
  intros A P R n f g h d H HP D. unfold tabulate.
  assert (E : forall l, forallb (fun x => is_ok (g x)) l = forallb (fun x => is_ok (f x)) l /\ forallb (fun x => is_ok (h x)) l = forallb (fun x => is_ok (f x)) l).
  { induction l as [|x l [I1 I2]]; auto. cbn. rewrite I1, I2. specialize (H x). unfold all_or_error in H. destruct (f x), (g x), (h x); cbn; tauto || auto. }
  destruct (E (cells n)) as [E1 E2]. rewrite E1, E2. destruct (forallb (fun x => is_ok (f x)) (cells n)); cbn; auto. apply HP. intros x. specialize (H x). unfold all_or_error in H.
  destruct (f x), (g x), (h x); tauto || auto.
Qed.
Definition comb_modes1 (a b : R) (x y z : cplx) : Prop := re z = a * re x + b * re y /\ im z = a * im x + b * im y.
Definition comb1 (a b x y z : R) : Prop := z = a * x + b * y.

(** The complex field. *)
Lemma mode_power_scale : forall p shape t los k, (forall k mu, p k mu = t ^ 2 * shape k mu) -> mode_power p los k = t ^ 2 * mode_power shape los k.
Proof. intros p shape t los k H. unfold mode_power. destruct (Req_EM_T _ 0); [ring|]. destruct los; apply H. Qed.
Lemma complex_comb : forall a b freq box n p los w inv p' los' w' inv' p'' los'' w'' inv'', combined_seeds a b (p, los, w, inv) (p', los', w', inv') (p'', los'', w'', inv'') ->
  all_or_error (combined_modes a b) (set_complex_delta_field freq box n p los w inv) (set_complex_delta_field freq box n p' los' w' inv') (set_complex_delta_field freq box n p'' los'' w'' inv'').
Proof.
  intros a b freq box n p los w inv p' los' w' inv' p'' los'' w'' inv'' (-> & -> & -> & -> & shape & t & t' & t'' & T & T' & T'' & S & C). unfold set_complex_delta_field.
  destruct (fdiv 1 (vx box * vy box * vz box)) as [norm|e]; cbn [bind]; [|cbn; auto].
  apply (tabulate_comb _ (comb_modes1 a b)); [|auto|split; cbn; ring]. intros k.
  rewrite (mode_power_scale p shape t) by apply S. rewrite (mode_power_scale p' shape t') by (intros; apply S). rewrite (mode_power_scale p'' shape t'') by (intros; apply S).
  set (q := mode_power shape los (wave freq box n k)).
  assert (X : forall s, 0 < s -> s ^ 2 * q * norm < 0 <-> q * norm < 0).
  { intros s Hs. replace (s ^ 2 * q * norm) with (s ^ 2 * (q * norm)) by ring. assert (0 < s ^ 2) by (apply pow_lt; auto). split; intros; nra. }
  assert (Y : forall s, 0 < s -> 0 <= q * norm -> sqrt (s ^ 2 * q * norm) = s * sqrt (q * norm)).
  { intros s Hs Q. replace (s ^ 2 * q * norm) with (s ^ 2 * (q * norm)) by ring. rewrite sqrt_mult by (auto; apply pow2_ge_0). rewrite sqrt_pow2 by lra. auto. }
  pose proof (X t T) as X1. pose proof (X t' T') as X2. pose proof (X t'' T'') as X3.
  destruct (Rlt_dec (q * norm) 0) as [N|N].
  - destruct (Rlt_dec (t ^ 2 * q * norm) 0); [|tauto]. destruct (Rlt_dec (t' ^ 2 * q * norm) 0); [|tauto]. destruct (Rlt_dec (t'' ^ 2 * q * norm) 0); [|tauto]. cbn; auto.
  - destruct (Rlt_dec (t ^ 2 * q * norm) 0); [tauto|]. destruct (Rlt_dec (t' ^ 2 * q * norm) 0); [tauto|]. destruct (Rlt_dec (t'' ^ 2 * q * norm) 0); [tauto|].
    cbn [all_or_error]. rewrite !Y by lra. destruct (C k) as [C1 C2]. cbn in C1, C2. assert (Z1 : forall c, c * (t'' * re (w'' k)) = a * (c * (t * re (w k))) + b * (c * (t' * re (w' k)))) by (intros; rewrite C1; ring).
    assert (Z2 : forall c, c * (t'' * im (w'' k)) = a * (c * (t * im (w k))) + b * (c * (t' * im (w' k)))) by (intros; rewrite C2; ring).
    pose proof (Z1 (sqrt (q * norm))). pose proof (Z2 (sqrt (q * norm))). destruct inv; split; cbn; lra.
Qed.

(** The fields in the box. *)
Lemma real_comb : forall a b neg box center n f g h bias, combined_modes a b f g h -> (forall c, bias <> Some (BFun c)) ->
  all_or_error (combined a b) (set_real_delta_field neg box center n f bias false) (set_real_delta_field neg box center n g bias false) (set_real_delta_field neg box center n h bias false).
Proof.
  intros a b neg box center n f g h bias H B. pose proof (c2r_comb a b n f g h H) as C. unfold set_real_delta_field. destruct bias as [[t|c]|]; cbn [all_or_error].
  - intros x. rewrite (C x). ring.
  - exfalso. apply (B c). auto.
  - auto.
Qed.
Lemma displacement_comb : forall a b freq box n f g h i, combined_modes a b f g h -> combined a b (displacement freq box n f i) (displacement freq box n g i) (displacement freq box n h i).
Proof. intros. apply c2r_comb, cmul_comb, H. Qed.
Lemma euler_comb : forall a b freq neg box center n f g h d d' d'' fac los, combined_modes a b f g h -> combined a b d d' d'' ->
  all_or_error (combined a b) (eulerian_set_rsd freq neg box center n f d fac los) (eulerian_set_rsd freq neg box center n g d' fac los) (eulerian_set_rsd freq neg box center n h d'' fac los).
Proof.
  intros a b freq neg box center n f g h d d' d'' fac los H D. unfold eulerian_set_rsd. destruct los as [ax|].
  - destruct (get_los ax) as [l|e]; cbn [bind]; [|cbn; auto]. pose proof (c2r_comb a b n _ _ _ (cscale_comb a b f g h (fun k => fixed_kernel (wave freq box n k) l) H)) as C.
    cbn [all_or_error]. intros x. rewrite (D x). destruct fac; rewrite (C x); ring.
  - match goal with |- all_or_error _ (bind ?t _) (bind ?u _) (bind ?v _) => assert (T : all_or_error (combined a b) t u v) end.
    { apply (tabulate_comb _ (comb1 a b)); [|auto|unfold comb1; ring]. intros x. cbv zeta. match goal with |- context [Req_EM_T ?r 0] => destruct (Req_EM_T r 0) end; [cbn; auto|]. cbn [all_or_error]. unfold comb1.
      apply sum_comb. intros [i j] _. pose proof (c2r_comb a b n _ _ _ (cscale_comb a b f g h (fun k => local_kernel n k (wave freq box n k) i j) H) x) as C. cbv beta in C. rewrite C. ring. }
    unfold all_or_error in T. repeat match type of T with context [match ?r with Ok _ => _ | Err _ => _ end] => destruct r end; try contradiction; cbn [bind all_or_error]; auto.
    intros x. rewrite (D x). destruct fac; rewrite (T x); ring.
Qed.

(** One call. *)
Ltac setting3 H := match type of H with all_or_error _ ?r ?s ?t => destruct r, s, t; cbn in H; try contradiction end.
Lemma step_comb : forall a b freq neg pm c o o' o'' m m' m'', superposed a b m m' m'' -> calls_on a b o o' o'' ->
  superposed a b (fst (step freq neg pm c m o)) (fst (step freq neg pm c m' o')) (fst (step freq neg pm c m'' o'')) /\
  snd (step freq neg pm c m' o') = snd (step freq neg pm c m o) /\ snd (step freq neg pm c m'' o'') = snd (step freq neg pm c m o).
Proof.
  intros a b freq neg pm c o o' o'' [box n ce se dk dr nb no di po ds] [box' n' ce' se' dk' dr' nb' no' di' po' ds'] [box'' n'' ce'' se'' dk'' dr'' nb'' no'' di'' po'' ds''] S C.
  pose proof S as S0. unfold superposed in S; cbn in S. destruct S as ((-> & ->) & (-> & ->) & (-> & ->) & (-> & ->) & (-> & ->) & (-> & -> & ->) & (-> & -> & ->) & SE & DK & DR & DI).
  destruct C as [|bias B|nbar i|f los|v|w w' w'' W]; cbn [step m_box m_n m_center m_seed m_delta_k m_delta_r m_nbar m_norm m_disp m_position m_disps].
  - destruct se as [[[[p l] w] inv]|], se' as [[[[p' l'] w'] inv']|], se'' as [[[[p'' l''] w''] inv'']|]; cbn in SE; try contradiction; [|auto].
    pose proof (complex_comb a b freq box n _ _ _ _ _ _ _ _ _ _ _ _ SE) as H. unfold setting. setting3 H; cbn; [|destruct H as [<- <-]; auto]. split; auto. unfold superposed; cbn. repeat (split; [auto|]). auto.
  - pose proof (real_comb a b neg box ce n dk dk' dk'' bias DK B) as H. unfold setting. setting3 H; cbn; [|destruct H as [<- <-]; auto]. split; auto.
    destruct c; unfold superposed; cbn; repeat (split; [auto|]); auto. intros i. apply displacement_comb; auto.
  - unfold setting, select_density; cbn. destruct nbar as [t|nbar]; cbn.
    + split; auto. unfold superposed; cbn. repeat (split; [auto|]). auto.
    + destruct (set_selection freq neg box ce n nbar i); cbn; auto. split; auto. unfold superposed; cbn. repeat (split; [auto|]). auto.
  - destruct c; unfold setting.
    + destruct dr as [d|], dr' as [d'|], dr'' as [d''|]; cbn in DR; try contradiction; cbn [attribute bind]; [|auto].
      pose proof (euler_comb a b freq neg box ce n dk dk' dk'' d d' d'' f los DK DR) as H. setting3 H; cbn; [|destruct H as [<- <-]; auto]. split; auto. unfold superposed; cbn. repeat (split; [auto|]). auto.
    + cbn. auto.
  - cbn. split; auto. unfold superposed; cbn. repeat (split; [auto|]). auto.
  - unfold setting, white_noise; cbn [m_delta_r m_nbar m_box m_n]. destruct dr as [d|], dr' as [d'|], dr'' as [d''|]; cbn in DR; try contradiction; cbn [attribute bind]; [|auto].
    destruct nb as [nb|]; cbn [attribute bind]; [|auto]. cbv zeta.
    assert (H : all_or_error (combined a b)
      (tabulate n (fun x => if Rlt_dec 0 (times nb (fun _ => vx (cell_size box n) * vy (cell_size box n) * vz (cell_size box n)) x) then Ok (d x + w x / sqrt (times nb (fun _ => vx (cell_size box n) * vy (cell_size box n) * vz (cell_size box n)) x)) else Err ZeroDivision) 0)
      (tabulate n (fun x => if Rlt_dec 0 (times nb (fun _ => vx (cell_size box n) * vy (cell_size box n) * vz (cell_size box n)) x) then Ok (d' x + w' x / sqrt (times nb (fun _ => vx (cell_size box n) * vy (cell_size box n) * vz (cell_size box n)) x)) else Err ZeroDivision) 0)
      (tabulate n (fun x => if Rlt_dec 0 (times nb (fun _ => vx (cell_size box n) * vy (cell_size box n) * vz (cell_size box n)) x) then Ok (d'' x + w'' x / sqrt (times nb (fun _ => vx (cell_size box n) * vy (cell_size box n) * vz (cell_size box n)) x)) else Err ZeroDivision) 0)).
    { apply (tabulate_comb _ (comb1 a b)); [|auto|unfold comb1; ring]. intros x. destruct (Rlt_dec 0 _); [|cbn; auto]. cbn [all_or_error]. unfold comb1. rewrite (DR x), (W x). unfold Rdiv. ring. }
    setting3 H; cbn; [|destruct H as [<- <-]; auto]. split; auto. unfold superposed; cbn. repeat (split; [auto|]). auto.
Qed.
Lemma run_comb : forall a b freq neg pm c l l' l'', histories a b l l' l'' -> forall m m' m'', superposed a b m m' m'' ->
  superposed a b (fst (run freq neg pm c m l)) (fst (run freq neg pm c m' l')) (fst (run freq neg pm c m'' l'')) /\
  snd (run freq neg pm c m' l') = snd (run freq neg pm c m l) /\ snd (run freq neg pm c m'' l'') = snd (run freq neg pm c m l).
Proof.
  intros a b freq neg pm c l l' l'' H. induction H as [|o o' o'' l l' l'' C H IH]; intros m m' m'' S; cbn; [auto|].
  destruct (step_comb a b freq neg pm c o o' o'' m m' m'' S C) as (S1 & R1 & R2).
  destruct (step freq neg pm c m o) as [m1 r1], (step freq neg pm c m' o') as [m1' r1'], (step freq neg pm c m'' o'') as [m1'' r1'']. cbn in *. subst.
  destruct (IH _ _ _ S1) as (S2 & R3 & R4). destruct (run freq neg pm c m1 l), (run freq neg pm c m1' l'), (run freq neg pm c m1'' l''). cbn in *. subst. auto.
Qed.

(** Reading fields. *)
Lemma readout_at_comb : forall a b pm n r f g h p, combined a b f g h -> readout_at pm n r h p = a * readout_at pm n r f p + b * readout_at pm n r g p.
Proof.
  intros a b pm n r f g h p H. unfold readout_at. apply sum_comb. intros [j part] _. cbn. destruct (sent pm r p j); [|ring]. apply sum_comb. intros x _. rewrite (H x). ring.
Qed.
Lemma rows_comb : forall {A} a b (f g h : A -> R) l, (forall x, h x = a * f x + b * g x) -> combined_rows a b (map f l) (map g l) (map h l).
Proof.
  intros A a b f g h l H. unfold combined_rows. rewrite !map_length. split; auto. split; auto. intros i x y z. rewrite !nth_error_map. destruct (nth_error l i); cbn; [|discriminate].
  intros [= <-] [= <-] [= <-]. auto.
Qed.
Lemma compensate_comb : forall a b freq box n r f g h, combined a b f g h -> all_or_error (combined a b) (compensate_mesh freq box n r f) (compensate_mesh freq box n r g) (compensate_mesh freq box n r h).
Proof.
  intros a b freq box n r f g h H. unfold compensate_mesh. destruct (order r) as [p|]; [|cbn; auto].
  match goal with |- all_or_error _ (bind ?t _) (bind ?u _) (bind ?v _) => assert (T : all_or_error (combined_modes a b) t u v) end.
  { apply (tabulate_comb _ (comb_modes1 a b)); [|auto|split; cbn; ring]. intros k. cbv zeta. destruct (Req_EM_T _ 0); [cbn; auto|]. cbn [all_or_error].
    apply (cscale_comb a b _ _ _ (fun k => / window p (vmul (wave freq box n k) (cell_size box n))) (r2c_comb a b n f g h H) k). }
  unfold all_or_error in T. repeat match type of T with context [match ?r with Ok _ => _ | Err _ => _ end] => destruct r end; try contradiction; cbn [bind all_or_error]; auto. apply c2r_comb, T.
Qed.
(** Three fields in the relation, or one number. *)
Definition comb_field (a b : R) (x y z : field) : Prop := match x, y, z with Mesh f, Mesh g, Mesh h => combined a b f g h | Number _, Number _, Number _ => True | _, _, _ => False end.
Lemma choose_comb : forall a b m m' m'' x x' x'', superposed a b m m' m'' -> fields_of a b x x' x'' -> all_or_error (comb_field a b) (choose_field m x) (choose_field m' x') (choose_field m'' x'').
Proof.
  intros a b m m' m'' x x' x'' (_ & _ & _ & (N1 & N2) & _ & _ & _ & _ & _ & DR & _) F.
  destruct F as [| |s|s U|f f' f'' C]; cbn [choose_field].
  - cbn. destruct (m_delta_r m), (m_delta_r m'), (m_delta_r m''); cbn in DR; try contradiction; cbn; auto.
  - cbn. rewrite N1, N2. destruct (m_nbar m) as [w|]; cbn; [|auto]. destruct (m_delta_r m), (m_delta_r m'), (m_delta_r m''); cbn in DR; try contradiction; cbn; auto. intros y. destruct w; cbn; rewrite (DR y); ring.
  - cbn. auto.
  - destruct (String.eqb s "delta"); [destruct (m_delta_r m), (m_delta_r m'), (m_delta_r m''); cbn in DR; try contradiction; cbn; auto|].
    destruct (String.eqb s "nbar*delta").
    { rewrite N1, N2. destruct (m_nbar m) as [w|]; cbn; [|auto]. destruct (m_delta_r m), (m_delta_r m'), (m_delta_r m''); cbn in DR; try contradiction; cbn; auto. intros y. destruct w; cbn; rewrite (DR y); ring. }
    destruct (String.eqb s "nbar*(1+delta)").
    { rewrite N1, N2. destruct (m_nbar m) as [w|]; cbn; [|auto]. destruct (m_delta_r m), (m_delta_r m'), (m_delta_r m''); cbn in DR; try contradiction; cbn; auto. intros y. replace b with (1 - a) by lra. destruct w; cbn; rewrite (DR y); replace b with (1 - a) by lra; ring. }
    destruct (String.eqb s "nbar"); [|cbn; auto]. rewrite N1, N2. destruct (m_nbar m) as [[t|w]|]; cbn; auto. intros y. replace b with (1 - a) by lra. ring.
  - cbn. auto.
Qed.
Lemma readout_comb : forall a b freq pm m m' m'' pos x x' x'' r comp, superposed a b m m' m'' -> fields_of a b x x' x'' ->
  all_or_error (combined_rows a b) (readout freq pm m pos x r comp) (readout freq pm m' pos x' r comp) (readout freq pm m'' pos x'' r comp).
Proof.
  intros a b freq pm m m' m'' pos x x' x'' r comp S F. pose proof (choose_comb a b m m' m'' x x' x'' S F) as H. unfold readout. destruct S as ((B1 & B2) & (N1 & N2) & (C1 & C2) & _). rewrite B1, B2, N1, N2, C1, C2.
  setting3 H; cbn [bind]; [|cbn; auto]. destruct a0, a1, a2; cbn in H; try contradiction.
  - destruct comp; cbn [as_mesh bind]; [cbn; auto|]. destruct (known pm _); cbn; auto.
  - destruct comp; cbn [as_mesh bind].
    + pose proof (compensate_comb a b freq (m_box m) (m_n m) (lowercase r) _ _ _ H) as K. setting3 K; cbn [bind]; [|cbn; auto]. destruct (known pm _); cbn [as_mesh bind all_or_error]; auto. apply rows_comb. intros. apply readout_at_comb; auto.
    + destruct (known pm _); cbn [as_mesh bind all_or_error]; auto. apply rows_comb. intros. apply readout_at_comb; auto.
Qed.
Lemma prefix_disp : forall s, String.prefix "disp_" ("disp_" ++ s) = true.
Proof. intros s. cbn. destruct s; reflexivity. Qed.
Lemma lagrangian_readout_comb : forall a b freq pm m m' m'' pos x x' x'' r comp, superposed a b m m' m'' -> fields_of a b x x' x'' ->
  all_or_error (combined_rows a b) (lagrangian_readout freq pm m pos x r comp) (lagrangian_readout freq pm m' pos x' r comp) (lagrangian_readout freq pm m'' pos x'' r comp).
Proof.
  intros a b freq pm m m' m'' pos x x' x'' r comp S F. unfold lagrangian_readout.
  assert (D : forall s, all_or_error (combined_rows a b)
    (do arg <- (do i <- xyz_index s; do d <- attribute (m_disp m); Ok (Given (d i))); readout freq pm m pos arg r false)
    (do arg <- (do i <- xyz_index s; do d <- attribute (m_disp m'); Ok (Given (d i))); readout freq pm m' pos arg r false)
    (do arg <- (do i <- xyz_index s; do d <- attribute (m_disp m''); Ok (Given (d i))); readout freq pm m'' pos arg r false)).
  { intros s. destruct (xyz_index s) as [i|e]; cbn [bind]; [|cbn; auto]. pose proof S as S'. destruct S as (_ & _ & _ & _ & _ & _ & _ & _ & _ & _ & DI). destruct (m_disp m), (m_disp m'), (m_disp m''); cbn in DI; try contradiction; cbn [attribute bind]; [|cbn; auto].
    apply readout_comb; auto. apply of_given. auto. }
  destruct F as [| |s|s U|f f' f'' C].
  - cbn [String.prefix]. apply readout_comb; auto. constructor.
  - cbn [String.prefix]. apply readout_comb; auto. constructor.
  - rewrite prefix_disp. apply D.
  - destruct (String.prefix "disp_" s); [apply D|]. cbn [bind]. apply readout_comb; auto. apply of_average; auto.
  - cbn [bind]. apply readout_comb; auto. apply of_given; auto.
Qed.

(** The selection function. *)
Lemma bind3 : forall {A B} (P : A -> A -> A -> Prop) (Q : B -> B -> B -> Prop) (x y z : result A) (f g h : A -> result B), all_or_error P x y z -> (forall u v w, P u v w -> all_or_error Q (f u) (g v) (h w)) ->
  all_or_error Q (bind x f) (bind y g) (bind z h).
Proof. intros A B P Q x y z f g h H K. destruct x, y, z; cbn in H |- *; try contradiction; auto. Qed.
Lemma paint_comb : forall a b neg box offset n f g h, (forall d r c, h d r c = a * f d r c + b * g d r c) -> all_or_error (combined a b) (paint neg box offset n f) (paint neg box offset n g) (paint neg box offset n h).
Proof.
  intros a b neg box offset n f g h H. unfold paint. apply (tabulate_comb _ (comb1 a b)); [|auto|unfold comb1; ring]. intros x. destruct (cartesian_to_sky _ _) as [[[d r] c]|e]; cbn; auto. apply H.
Qed.
Lemma interlace_comb : forall a b freq neg box n f g h order, (forall d r c, h d r c = a * f d r c + b * g d r c) -> forall todo i offset u v w, combined_modes a b u v w ->
  all_or_error (combined_modes a b) (interlace freq neg box offset n f order i todo u) (interlace freq neg box offset n g order i todo v) (interlace freq neg box offset n h order i todo w).
Proof.
  intros a b freq neg box n f g h order H. induction todo as [|todo IH]; intros i offset u v w C; cbn [interlace]; [exact C|].
  apply (bind3 (combined a b)); [apply paint_comb; auto|]. intros p q r K. apply IH. intros k. destruct (C k) as [C1 C2].
  destruct (cmul_comb a b _ _ _ (fun k => expi (INR i / INR order * vdot (wave freq box n k) (cell_size box n))) (r2c_comb a b n p q r K) k) as [D1 D2].
  cbv beta in D1, D2. unfold cadd; cbn [re im]. rewrite C1, C2, D1, D2. split; ring.
Qed.
Lemma selection_comb : forall a b freq neg box center n f g h i, (forall d r c, h d r c = a * f d r c + b * g d r c) ->
  all_or_error (combined a b) (set_selection freq neg box center n f i) (set_selection freq neg box center n g i) (set_selection freq neg box center n h i).
Proof.
  intros a b freq neg box center n f g h i H. unfold set_selection. apply (bind3 (combined a b)); [apply paint_comb; auto|]. intros p q r K. destruct i; [exact K|].
  cbv zeta. apply (bind3 (combined_modes a b)); [apply interlace_comb; auto; apply r2c_comb; auto|]. intros p' q' r' K'. cbn [all_or_error]. intros x. rewrite (c2r_comb a b n _ _ _ K' x). unfold Rdiv. ring.
Qed.

(** Distortions of fields add up. *)
Lemma euler_add : forall freq neg box center n dk d f g h los, add_up f g h ->
  match eulerian_set_rsd freq neg box center n dk d f los with
  | Err e => eulerian_set_rsd freq neg box center n dk d h los = Err e /\ eulerian_set_rsd freq neg box center n dk d g los = Err e
  | Ok d1 => exists d2 d3, eulerian_set_rsd freq neg box center n dk d1 g los = Ok d2 /\ eulerian_set_rsd freq neg box center n dk d h los = Ok d3 /\ forall x, d3 x = d2 x
  end.
Proof.
  intros freq neg box center n dk d f g h los A.
  assert (T : exists t : result (idx -> R), forall f d, (exists e, t = Err e /\ eulerian_set_rsd freq neg box center n dk d f los = Err e) \/
    (exists s out, t = Ok s /\ eulerian_set_rsd freq neg box center n dk d f los = Ok out /\ forall x, out x = d x + s x * factor_at f (distance (point neg box (corner box center) n x)))).
  { unfold eulerian_set_rsd. destruct los as [ax|].
    - destruct (get_los ax) as [l|e]; [|exists (Err e); intros; left; exists e; auto]. cbn [bind]. exists (Ok (c2r n (fun k => cscale (fixed_kernel (wave freq box n k) l) (dk k)))). intros f0 d0. right. eexists. eexists. split; [reflexivity|]. split; [reflexivity|].
      intros x. destruct f0; cbn; ring.
    - exists (tabulate n (fun x =>
        let r2 := vx (point neg box (corner box center) n x) ^ 2 + vy (point neg box (corner box center) n x) ^ 2 + vz (point neg box (corner box center) n x) ^ 2 in
        if Req_EM_T r2 0 then Err ZeroDivision else
        Ok (Rsum (map (fun p => let '(i, j) := p in (1 + (if Nat.eqb i j then 0 else 1)) * (c2r n (fun k => cscale (local_kernel n k (wave freq box n k) i j) (dk k)) x * (component (point neg box (corner box center) n x) i * component (point neg box (corner box center) n x) j / r2))) pairs))) 0).
      intros f0 d0. match goal with |- (exists e, ?t = _ /\ bind ?u _ = _) \/ _ => assert (E : all_or_error (fun v w _ => forall x, w x = v x * (match f0 with FNum f0 => f0 | FFun _ => 1 end)) t u t) end.
      { apply (tabulate_comb _ (fun v w _ => w = v * (match f0 with FNum f0 => f0 | FFun _ => 1 end))); [|auto|ring]. intros x. cbv zeta. destruct (Req_EM_T _ 0); [cbn; auto|]. cbn [all_or_error].
        rewrite (sum_comb (match f0 with FNum f0 => f0 | FFun _ => 1 end) 0 (fun p => let '(i, j) := p in (1 + (if Nat.eqb i j then 0 else 1)) * (c2r n (fun k => cscale (local_kernel n k (wave freq box n k) i j) (dk k)) x * (component (point neg box (corner box center) n x) i * component (point neg box (corner box center) n x) j / (vx (point neg box (corner box center) n x) ^ 2 + vy (point neg box (corner box center) n x) ^ 2 + vz (point neg box (corner box center) n x) ^ 2)))) (fun _ => 0)); [ring|].
        intros [i j] _. destruct f0; ring. }
      match type of E with all_or_error _ ?t ?u _ => destruct t as [s|e], u as [s'|e'] end; cbn in E; try contradiction.
      + right. cbn [bind]. eexists. eexists. split; [reflexivity|]. split; [reflexivity|]. intros x. destruct f0; cbn; rewrite (E x); ring.
      + left. exists e. cbn. destruct E as [<- _]. auto. }
  destruct T as [t T]. destruct (T f d) as [(e & E & F)|(s & d1 & E & F & X)]; rewrite F.
  - split; [destruct (T h d) as [(e' & E' & F')|(s' & d1' & E' & _)]|destruct (T g d) as [(e' & E' & F')|(s' & d1' & E' & _)]]; congruence.
  - destruct (T g d1) as [(e' & E' & F')|(s' & d2 & E' & F' & X')]; [congruence|]. destruct (T h d) as [(e'' & E'' & F'')|(s'' & d3 & E'' & F'' & X'')]; [congruence|].
    exists d2, d3. repeat split; auto. intros x. assert (s' = s) by congruence. assert (s'' = s) by congruence. subst. rewrite X'', X', X, A. ring.
Qed.
