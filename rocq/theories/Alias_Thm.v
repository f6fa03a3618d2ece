(** Theorems C55 (arrays of the caller) and C79 (integers). *)
Require Import Reals ZArith String List Bool Lia Lra.
From Verif Require Import Base Vec3 Isometry_Model Sky_Model Cutsky_Model Box_Model Rsd_Model Remap_Model Blind_Model Alias_Model Alias_Spec Isometry_Proof Blind_Thm2 SV3_Thm.
Import ListNotations.
Open Scope R_scope.

(** [m] writes only to arrays made after [n]; its result satisfies [Q]. *)
Definition frame {A} (n : nat) (m : M A) (Q : A -> Prop) : Prop :=
  forall h, (n <= next h)%nat -> let '(h', r) := m h in
    (next h <= next h')%nat /\ (forall p, (p < n)%nat -> cells h' p = cells h p) /\ match r with Ok a => Q a | Err _ => True end.
Lemma frame_bind : forall A B n (m : M A) (f : A -> M B) Q R,
  frame n m Q -> (forall a, Q a -> frame n (f a) R) -> frame n (mbind m f) R.
Proof.
  intros A B n m f Q R Hm Hf h Hh. unfold mbind. specialize (Hm h Hh). destruct (m h) as [h1 [a|e]].
  - destruct Hm as (N & K & Qa). specialize (Hf a Qa h1 ltac:(lia)). destruct (f a h1) as [h2 r]. destruct Hf as (N2 & K2 & R2).
    split; [lia|]. split; [|exact R2]. intros p Hp. rewrite K2 by exact Hp. apply K; exact Hp.
  - destruct Hm as (N & K & _). split; [exact N|]. split; [exact K|exact I].
Qed.
Lemma frame_ret : forall A n (a : A) (Q : A -> Prop), Q a -> frame n (ret a) Q.
Proof. intros A n a Q H h Hh. cbn. repeat split; auto. Qed.
Lemma frame_lift : forall A n (r : result A), frame n (lift r) (fun a => r = Ok a).
Proof. intros A n r h Hh. cbn. repeat split; auto. destruct r; auto. Qed.
Lemma frame_load : forall n p, frame n (load p) (fun _ => True).
Proof. intros n p h Hh. cbn. repeat split; auto. Qed.
Lemma frame_alloc : forall n a, frame n (alloc a) (fun p => (n <= p)%nat).
Proof.
  intros n a h Hh. cbn. split; [lia|]. split; [|exact Hh].
  intros p Hp. destruct (Nat.eqb_spec p (next h)); [lia|reflexivity].
Qed.
Lemma frame_store : forall n p a, (n <= p)%nat -> frame n (store p a) (fun _ => True).
Proof.
  intros n p a H h Hh. cbn. split; [lia|]. split; [|exact I].
  intros q Hq. destruct (Nat.eqb_spec q p); [lia|reflexivity].
Qed.
Lemma frame_weaken : forall A n (m : M A) (Q R : A -> Prop), frame n m Q -> (forall a, Q a -> R a) -> frame n m R.
Proof. intros A n m Q R H W h Hh. specialize (H h Hh). destruct (m h) as [h' [a|e]]; destruct H as (X & Y & Z); repeat split; auto. Qed.
Lemma frame_inplace : forall n p f, (n <= p)%nat -> frame n (inplace p f) (fun _ => True).
Proof.
  intros n p f H. unfold inplace. eapply frame_bind; [apply frame_load|]. intros a _. destruct (a_type a).
  - eapply frame_weaken; [apply frame_lift|auto].
  - eapply frame_bind; [apply frame_lift|]. intros c _. apply frame_store; exact H.
Qed.
Lemma frame_value : forall n g, frame n (value g) (fun _ => True).
Proof. intros n [p|a]; cbn; [apply frame_load|apply frame_ret; exact I]. Qed.
Lemma frame_nparray : forall n g, frame n (nparray g) (fun p => (n <= p)%nat).
Proof. intros n g. unfold nparray. eapply frame_bind; [apply frame_value|]. intros a _. apply frame_alloc. Qed.
Lemma frame_floats : forall n c, frame n (floats c) (fun p => (n <= p)%nat).
Proof. intros. apply frame_alloc. Qed.
Ltac fr1 := lazymatch goal with
  | |- frame _ (mbind _ _) _ => eapply frame_bind; [| intros ? ?]
  | |- frame _ (value _) _ => apply frame_value
  | |- frame _ (load _) _ => apply frame_load
  | |- frame _ (lift _) _ => eapply frame_weaken; [apply frame_lift | intros; first [exact I | eassumption]]
  | |- frame _ (nparray _) _ => apply frame_nparray
  | |- frame _ (floats _) _ => apply frame_floats
  | |- frame _ (alloc _) _ => apply frame_alloc
  | |- frame _ (inplace _ _) _ => eapply frame_inplace; eassumption
  | |- frame _ (ret _) _ => apply frame_ret; first [eassumption | exact I]
  end.

Lemma wrap_frame : forall n degree g, frame n (wrap degree g) (fun p => (n <= p)%nat).
Proof. intros. unfold wrap. repeat fr1. Qed.
Lemma los_frame : forall n g, frame n (los_vector g) (fun p => (n <= p)%nat).
Proof. intros. unfold los_vector. repeat fr1. Qed.
Lemma projection_frame : forall n v d, frame n (projection v d) (fun p => (n <= p)%nat).
Proof. intros. unfold projection. repeat fr1. Qed.
Lemma sky_frame : forall n degree g, frame n (to_sky degree g) (Forall (fun p => (n <= p)%nat)).
Proof. intros. unfold to_sky. repeat fr1. apply frame_ret. repeat constructor; assumption. Qed.
Lemma cartesian_frame : forall n degree d r e, frame n (to_cartesian degree d r e) (fun p => (n <= p)%nat).
Proof. intros. unfold to_cartesian. do 6 fr1. all: try solve [repeat fr1]. destruct negb; [eapply frame_weaken; [apply frame_lift|intros; discriminate]|apply frame_alloc]. Qed.
Lemma isometry_frame : forall n s ti g, frame n (apply_isometry s ti g) (fun p => (n <= p)%nat).
Proof. intros. unfold apply_isometry. do 3 fr1. all: try solve [repeat fr1]. eapply frame_bind with (Q := fun _ => True); [destruct ti; repeat fr1|]. intros ? ?. repeat fr1. Qed.
Lemma cuboid_frame : forall n c ti g, frame n (cuboid_transform c ti g) (fun p => (n <= p)%nat).
Proof. intros. unfold cuboid_transform. do 3 fr1. all: try solve [repeat fr1]. destruct ti; repeat fr1. Qed.
Lemma cuboid_inverse_frame : forall n c ti g, frame n (cuboid_inverse c ti g) (fun p => (n <= p)%nat).
Proof. intros. unfold cuboid_inverse. do 3 fr1. all: try solve [repeat fr1]. destruct ti; repeat fr1. Qed.
Lemma displacement_frame : forall n p v f los, frame n (displacement p v f los) (fun q => (n <= q)%nat).
Proof.
  intros. unfold displacement. do 5 fr1. all: try solve [repeat fr1]. { apply projection_frame. }
Qed.
Lemma rsd_frame : forall n p v f los, frame n (rsd_positions p v f los) (fun q => (n <= q)%nat).
Proof. intros. unfold rsd_positions. fr1; [apply displacement_frame|]. repeat fr1. Qed.
Lemma shuffle_frame : forall n frac u permute g, frame n (shuffled true frac u permute g) (fun q => (n <= q)%nat).
Proof.
  intros. unfold shuffled. do 2 fr1. all: try solve [repeat fr1]. destruct (a_type _).
  - eapply frame_weaken; [apply frame_lift|]. intros; discriminate.
  - repeat fr1.
Qed.
Lemma range_frame : forall n g, frame n (ra_range g) (fun q => (n <= q)%nat).
Proof. intros. unfold ra_range. fr1; [apply wrap_frame|]. repeat fr1. Qed.
Lemma one_frame : forall n m, frame n m (fun q => (n <= q)%nat) -> frame n (one m) (Forall (fun q => (n <= q)%nat)).
Proof. intros n m H. unfold one. eapply frame_bind; [exact H|]. intros a Ha. apply frame_ret. repeat constructor. exact Ha. Qed.
Lemma perform_frame : forall c n, (forall a b, c <> TwoVectors a b) -> frame n (perform c) (Forall (fun q => (n <= q)%nat)).
Proof.
  intros c n H. destruct c; cbn [perform]; try (exfalso; eapply H; reflexivity);
    try apply one_frame; auto using los_frame, wrap_frame, sky_frame, cartesian_frame, projection_frame, isometry_frame, cuboid_frame, cuboid_inverse_frame, rsd_frame, shuffle_frame, range_frame.
Qed.

(** Conversions, projections, isometries, remapping, redshift-space positions, shuffling, ranges of boxes: no array of the caller is written to, whatever the arrays,
    their type, the arguments and the outcome. *)
Theorem C55_calls : forall c h, (forall a b, c <> TwoVectors a b) -> kept h (fst (perform c h)).
Proof.
  intros c h H p Hp. pose proof (perform_frame c (next h) H h (Nat.le_refl _)) as F. destruct (perform c h) as [h' r]. apply (proj1 (proj2 F)). exact Hp.
Qed.
Print Assumptions C55_calls.
(** Nor by any sequence of such calls, results being passed on to other calls. *)
Theorem C55_programs : forall s, without_two_vectors s -> forall h, kept h (play s h).
Proof.
  intros s H. induction H as [|c k Hc Hk IH]; intros h p Hp; cbn [play]; [reflexivity|].
  pose proof (perform_frame c (next h) Hc h (Nat.le_refl _)) as F. destruct (perform c h) as [h' r]. destruct F as (N & K & _).
  rewrite IH by lia. apply K. exact Hp.
Qed.
Print Assumptions C55_programs.
(** What is returned is in new arrays: writing to them later does not change arguments. *)
Theorem C55_new : forall c h h' l, (forall a b, c <> TwoVectors a b) -> perform c h = (h', Ok l) -> forall p, In p l -> (next h <= p)%nat.
Proof.
  intros c h h' l H E. pose proof (perform_frame c (next h) H h (Nat.le_refl _)) as F. rewrite E in F. destruct F as (_ & _ & F).
  apply Forall_forall. exact F.
Qed.
Print Assumptions C55_new.

(** rotation_matrix_from_two_vectors: with lists or tuples nothing is written; arrays that are not arguments are not written to. *)
Lemma two_frame : forall h a b, let n := next h in
  frame n (two_vectors a b) (fun p => (n <= p)%nat) \/ (exists p, a = Ref p \/ b = Ref p).
Proof.
  intros h a b n. destruct a as [p|x]; [right; exists p; auto|]. destruct b as [p|y]; [right; exists p; auto|]. left.
  unfold two_vectors. cbn [asarray]. repeat fr1.
Qed.
Definition frame_but {A} (ps : nat -> Prop) (n : nat) (m : M A) (Q : A -> Prop) : Prop :=
  forall h, (n <= next h)%nat -> let '(h', r) := m h in
    (next h <= next h')%nat /\ (forall p, (p < n)%nat -> ~ ps p -> cells h' p = cells h p) /\ match r with Ok a => Q a | Err _ => True end.
Lemma but_bind : forall A B ps n (m : M A) (f : A -> M B) Q R,
  frame_but ps n m Q -> (forall a, Q a -> frame_but ps n (f a) R) -> frame_but ps n (mbind m f) R.
Proof.
  intros A B ps n m f Q R Hm Hf h Hh. unfold mbind. specialize (Hm h Hh). destruct (m h) as [h1 [a|e]].
  - destruct Hm as (N & K & Qa). specialize (Hf a Qa h1 ltac:(lia)). destruct (f a h1) as [h2 r]. destruct Hf as (N2 & K2 & R2).
    split; [lia|]. split; [|exact R2]. intros p Hp Hn. rewrite K2 by assumption. apply K; assumption.
  - destruct Hm as (N & K & _). split; [exact N|]. split; [exact K|exact I].
Qed.
Lemma but_frame : forall A ps n (m : M A) Q, frame n m Q -> frame_but ps n m Q.
Proof. intros A ps n m Q H h Hh. specialize (H h Hh). destruct (m h) as [h' r]. destruct H as (X & Y & Z). repeat split; auto. Qed.
Lemma but_inplace : forall (ps : nat -> Prop) n p f, (n <= p)%nat \/ ps p -> frame_but ps n (inplace p f) (fun _ => True).
Proof.
  intros ps n p f H h Hh. cbn. destruct (a_type (cells h p)); cbn; [repeat split; auto; lia|].
  destruct (f (a_content (cells h p))); cbn; [|repeat split; auto; lia].
  split; [lia|]. split; [|exact I]. intros q Hq Hn. destruct (Nat.eqb_spec q p); [subst q; destruct H; [lia|contradiction]|reflexivity].
Qed.
Lemma but_asarray : forall (ps : nat -> Prop) n g, (forall p, g = Ref p -> ps p) -> frame_but ps n (asarray g) (fun p => (n <= p)%nat \/ ps p).
Proof.
  intros ps n [p|a] H; cbn [asarray].
  - apply but_frame. apply frame_ret. right. apply H. reflexivity.
  - apply but_frame. eapply frame_weaken; [apply frame_alloc|]. auto.
Qed.
Theorem C55_others : forall a b h p, (p < next h)%nat -> a <> Ref p -> b <> Ref p -> cells (fst (perform (TwoVectors a b) h)) p = cells h p.
Proof.
  intros a b h p Hp Ha Hb. set (ps := fun q => a = Ref q \/ b = Ref q).
  assert (F : frame_but ps (next h) (two_vectors a b) (fun _ => True)).
  { unfold two_vectors. eapply but_bind; [apply but_asarray; unfold ps; auto|]. intros x Hx.
    eapply but_bind; [apply but_asarray; unfold ps; auto|]. intros y Hy.
    eapply but_bind; [apply but_inplace; exact Hx|]. intros ? _.
    eapply but_bind; [apply but_inplace; exact Hy|]. intros ? _.
    apply but_frame. repeat fr1. eapply frame_weaken; [apply frame_floats|auto]. }
  cbn [perform]. unfold one, mbind. specialize (F h (Nat.le_refl _)). destruct (two_vectors a b h) as [h' [r|e]]; cbn; destruct F as (_ & F & _); apply F; try assumption; unfold ps; intuition congruence.
Qed.
Print Assumptions C55_others.
Ltac run := cbv beta iota delta [perform one mbind ret lift load alloc store floats asarray value nparray inplace as_vec as_table as_flat on_vec on_table on_flat
  two_vectors los_vector wrap to_sky to_cartesian projection apply_isometry cuboid_transform cuboid_inverse displacement rsd_positions shuffled ra_range]; cbn.
(** Arrays of floats given to it become unit vectors. *)
Theorem C55_overwritten : forall p q h u v, (p < next h)%nat -> (q < next h)%nat -> p <> q -> cells h p = Arr DFloat (Vec u) -> cells h q = Arr DFloat (Vec v) ->
  u <> vzero -> v <> vzero -> exists h' m,
  perform (TwoVectors (Ref p) (Ref q)) h = (h', Ok [m]) /\
  cells h' p = Arr DFloat (Vec (vscale (/ vnorm u) u)) /\ cells h' q = Arr DFloat (Vec (vscale (/ vnorm v) v)) /\
  (forall mat a b, rotation_matrix_from_two_vectors u v = Ok (mat, a, b) -> cells h' m = Arr DFloat (Matrix mat)).
Proof.
  intros p q h u v Hp Hq D Cp Cq U V.
  run. rewrite Cp. cbn. rewrite (normalize_ok u U). cbn.
  destruct (Nat.eqb_spec q p); [congruence|]. rewrite Cq. cbn. rewrite (normalize_ok v V). cbn.
  rewrite Nat.eqb_refl. destruct (Nat.eqb_spec p q); [congruence|]. rewrite ?Nat.eqb_refl. cbn.
  eexists; eexists; split; [reflexivity|]. cbn. rewrite Nat.eqb_refl.
  destruct (Nat.eqb_spec p (next h)); [lia|]. destruct (Nat.eqb_spec q (next h)); [lia|]. destruct (Nat.eqb_spec p q); [congruence|]. rewrite ?Nat.eqb_refl.
  split; [reflexivity|]. split; [reflexivity|].
  intros mat a b H. unfold rotation_matrix_from_two_vectors in H. rewrite (normalize_ok u U), (normalize_ok v V) in H. cbn [bind] in H.
  unfold matrix_of. destruct (Req_EM_T _ 0); congruence.
Qed.
Print Assumptions C55_overwritten.

(** The other model files take arrays as values. With arrays in memory, and floats, the same is returned. *)
Ltac eb := repeat (cbn; rewrite ?Nat.eqb_refl).
Theorem C55_values : forall h p q,
  (forall degree l, cells h p = Arr DFloat (Flat l) -> returns (WrapAngle degree (Ref p)) h [Arr DFloat (Flat (map (wrap_angle degree) l))]) /\
  (forall degree l rows, cells h p = Arr DFloat (Table l) -> map_result (cartesian_to_sky degree) l = Ok rows ->
     returns (ToSky degree (Ref p)) h [Arr DFloat (Flat (map (fun x => fst (fst x)) rows)); Arr DFloat (Flat (map (fun x => snd (fst x)) rows)); Arr DFloat (Flat (map snd rows))]) /\
  (forall l k r, cells h p = Arr DFloat (Table l) -> cells h q = Arr DFloat (Table k) -> vector_projection l k = Ok r -> returns (Projection (Ref p) (Ref q)) h [Arr DFloat (Table r)]) /\
  (forall s ti l, cells h p = Arr DFloat (Table l) -> returns (Isometry s ti (Ref p)) h [Arr DFloat (Table (transform_all s ti l))]) /\
  (forall c ti l r, cells h p = Arr DFloat (Table l) -> cu_transform c ti l = Ok r -> returns (CuboidTransform c ti (Ref p)) h [Arr DFloat (Table r)]) /\
  (forall c ti l r, cells h p = Arr DFloat (Table l) -> cu_inverse c ti l = Ok r -> returns (CuboidInverse c ti (Ref p)) h [Arr DFloat (Table r)]) /\
  (forall c f los r pos vel, position c = Ok pos -> velocity c = Ok vel -> cells h p = Arr DFloat (Table pos) -> cells h q = Arr DFloat (Table vel) -> (p < next h)%nat -> (q < next h)%nat ->
     rsd_position c f los = Ok r -> returns (RsdPosition p q f los) h [Arr DFloat (Table r)]) /\
  (forall frac u permute l parts, cells h p = Arr DFloat (Table l) -> shuffle_parts false frac [u] permute [l] = Ok parts ->
     returns (Shuffle frac u permute (Ref p)) h [Arr DFloat (Table (List.concat parts))]).
Proof.
  assert (MR : forall A B C (f : A -> result B) (g : B -> result C) l l2, map_result (fun x => do y <- f x; g y) l = Ok l2 ->
    exists l1, map_result f l = Ok l1 /\ map_result g l1 = Ok l2).
  { intros A B C f g. induction l as [|a l IH]; cbn; intros l2 H; [exists []; split; [reflexivity|exact H]|].
    destruct (f a) as [b|e]; cbn in *; [|discriminate]. destruct (g b) as [c|e] eqn:G; cbn in *; [|discriminate].
    destruct (map_result _ l) as [t|e] eqn:T; cbn in *; [|discriminate]. destruct (IH t eq_refl) as (l1 & E1 & E2).
    rewrite E1. cbn. exists (b :: l1). split; [reflexivity|]. cbn. rewrite G, E2. exact H. }
  assert (MO : forall A B (f : A -> B) l l2, map_result (fun x => Ok (f x)) l = Ok l2 -> l2 = map f l).
  { intros A B f. induction l as [|a l IH]; cbn; intros l2 H; [congruence|]. destruct (map_result _ l) as [t|e]; cbn in *; [|discriminate].
    rewrite (IH t eq_refl) in H. congruence. }
  assert (MP : forall A B (f : A -> B) l, map_result (fun x => Ok (f x)) l = Ok (map f l)).
  { intros A B f. induction l as [|a l IH]; cbn; [reflexivity|]. rewrite IH. reflexivity. }
  intros h p q. repeat split.
  - intros degree l C. unfold returns. run. rewrite C. eb. eexists; eexists; split; [reflexivity|]. eb. rewrite !map_map. reflexivity.
  - intros degree l rows C E. unfold returns. run. rewrite C. cbn. rewrite E. cbn. eexists; eexists; split; [reflexivity|]. eb.
    repeat match goal with |- context[Nat.eqb ?a ?b] => destruct (Nat.eqb_spec a b); try lia end. reflexivity.
  - intros l k r C D E. unfold returns. run. rewrite C, D. cbn. rewrite E. cbn. eexists; eexists; split; [reflexivity|]. eb. reflexivity.
  - intros s ti l C. unfold returns. run. rewrite C. cbn. unfold transform_all. destruct ti; eb.
    + eexists; eexists; split; [reflexivity|]. eb. reflexivity.
    + rewrite MP. eb. eexists; eexists; split; [reflexivity|]. eb. rewrite map_map. reflexivity.
  - intros c ti l r C E. unfold cu_transform, cu_transform1 in E. unfold returns. run. rewrite C. eb. destruct ti.
    + rewrite (MO _ _ _ _ _ E). eexists; eexists; split; [reflexivity|]. eb. reflexivity.
    + apply MR in E. destruct E as (l1 & E1 & E2). eb. rewrite E1. eb.
      assert (E3 : exists l3, map_result (fun x => match loop_cells (cu_cells c) x with (true, x0) => Ok x0 | (false, _) => Err CuboidError end) l1 = Ok l3 /\ r = map (fun x => vmul (project c x) (cu_resize c)) l3).
      { clear -E2. revert r E2. induction l1 as [|a l1 IH]; cbn; intros r E2; [exists []; split; [reflexivity|cbn; congruence]|].
        destruct (loop_cells (cu_cells c) a) as [[] b]; cbn in *; [|discriminate].
        match type of E2 with context [map_result ?f l1] => destruct (map_result f l1) as [t|e] eqn:T end; cbn in *; [|discriminate]. destruct (IH t eq_refl) as (l3 & X & Y). rewrite X. cbn.
        exists (b :: l3). split; [reflexivity|]. cbn. rewrite <- Y. congruence. }
      destruct E3 as (l3 & E3 & ->). rewrite E3. eb. eexists; eexists; split; [reflexivity|]. eb. reflexivity.
  - intros c ti l r C E. unfold cu_inverse, cu_inverse1 in E. unfold returns. run. rewrite C. eb. destruct ti.
    + rewrite (MO _ _ _ _ _ E). eexists; eexists; split; [reflexivity|]. eb. reflexivity.
    + apply MR in E. destruct E as (l1 & E1 & E2). eb. rewrite E1. eb. rewrite (MO _ _ _ _ _ E2). eexists; eexists; split; [reflexivity|]. eb. reflexivity.
  - intros c f los r pos vel P V C D Np Nq E. unfold rsd_position in E. rewrite P, V in E. cbn [bind] in E.
    unfold returns. run. rewrite C. cbn.
    destruct (match los with None => map_result local_los pos | Some a => do v <- get_los a; Ok [v] end) as [ll|e]; cbn in *; [|discriminate].
    rewrite ?Nat.eqb_refl. destruct (Nat.eqb_spec q (next h)); [lia|]. rewrite D. cbn. destruct (vector_projection vel ll) as [r1|e]; cbn in *; [|discriminate].
    eb. destruct (match f with FFun f => scale_inplace r1 (map f (map distance pos)) | FNum f => Ok (map (vscale f) r1) end) as [r2|e]; cbn in *; [|discriminate].
    eb. repeat match goal with |- context[Nat.eqb ?a ?b] => destruct (Nat.eqb_spec a b); try lia end. rewrite C. cbn. rewrite E. cbn.
    eexists; eexists; split; [reflexivity|]. eb. reflexivity.
  - intros frac u permute l parts C E. unfold returns.
    cbv beta iota delta [perform one mbind ret lift load alloc store floats asarray value nparray inplace as_table shuffled]. cbn -[shuffle_parts].
    rewrite C. cbn -[shuffle_parts]. rewrite !Nat.eqb_refl. cbn -[shuffle_parts]. rewrite E. eb. eexists; eexists; split; [reflexivity|]. eb. reflexivity.
Qed.
Print Assumptions C55_values.
Lemma play_grows : forall s, without_two_vectors s -> forall h, (next h <= next (play s h))%nat.
Proof.
  intros s H. induction H as [|c k Hc Hk IH]; intros h; cbn [play]; [lia|].
  pose proof (perform_frame c (next h) Hc h (Nat.le_refl _)) as F. destruct (perform c h) as [h' r]. destruct F as (N & _).
  specialize (IH r h'). lia.
Qed.
(** Concrete: a table, an array of angles; angles are wrapped, positions are moved and the result is projected on itself. *)
Definition case_memory : memory :=
  Memory (fun p => match p with 0%nat => Arr DFloat (Table [V 1 2 3; V 4 5 6]) | 1%nat => Arr DFloat (Flat [370; - 10]) | 2%nat => Arr DFloat (Vec (V 3 0 0)) | _ => Arr DFloat (Vec (V 0 2 0)) end) 4.
Definition case_script : script :=
  Then (WrapAngle true (Ref 1)) (fun _ => Then (Isometry (Iso mid (V 1 0 0)) false (Ref 0)) (fun r => match r with Ok [p] => Then (Projection (Ref 0) (Ref p)) (fun _ => Done) | _ => Done end)).
Example C55_case : without_two_vectors case_script /\ (next case_memory < next (play case_script case_memory))%nat /\
  cells (play case_script case_memory) 0 = Arr DFloat (Table [V 1 2 3; V 4 5 6]) /\ cells (play case_script case_memory) 1 = Arr DFloat (Flat [370; - 10]).
Proof.
  assert (W : without_two_vectors case_script).
  { constructor; [discriminate|]. intros _. constructor; [discriminate|]. intros [[|p []]|e]; repeat (constructor; try discriminate). }
  split; [exact W|]. split; [|split; apply (C55_programs _ W case_memory); cbn; lia].
  unfold case_script in *. inversion W as [|c k Hc Hk]; subst. cbn [play] in *.
  destruct (perform (WrapAngle true (Ref 1)) case_memory) as [h' r] eqn:E.
  assert (N : (5 < next h')%nat) by (revert E; run; intro E; injection E; intros; subst; cbn; lia).
  pose proof (play_grows _ (Hk r) h') as G. cbn [play] in G. cbn [next case_memory]. lia.
Qed.
Example C55_overwritten_case : exists h' m, perform (TwoVectors (Ref 2) (Ref 3)) case_memory = (h', Ok [m]) /\ cells h' 2 = Arr DFloat (Vec (vscale (/ vnorm (V 3 0 0)) (V 3 0 0))).
Proof.
  destruct (C55_overwritten 2 3 case_memory (V 3 0 0) (V 0 2 0)) as (h' & m & E & C & _); cbn; try lia; try reflexivity; try (intro X; injection X; lra).
  exists h', m. auto.
Qed.
