(** Theorems C79: arrays of integers. *)
Require Import Reals ZArith String List Bool Lia Lra.
From Verif Require Import Base Vec3 Isometry_Model Sky_Model Cutsky_Model Box_Model Rsd_Model Remap_Model Blind_Model Alias_Model Alias_Spec Alias_Thm Remap_Spec Remap_Thm Sky_Proof Isometry_Proof.
Import ListNotations.
Open Scope R_scope.

(** Two memories with the same contents; arrays made after [n] have the same types too. *)
Definition alike (n : nat) (h h2 : memory) : Prop :=
  (n <= next h)%nat /\ next h2 = next h /\ (forall p, a_content (cells h2 p) = a_content (cells h p)) /\ (forall p, (n <= p)%nat -> cells h2 p = cells h p).
Definition sim {A} (n : nat) (m m2 : M A) (E : A -> A -> Prop) : Prop :=
  forall h h2, alike n h h2 -> let '(h', r) := m h in let '(h2', r2) := m2 h2 in
    alike n h' h2' /\ match r, r2 with Ok a, Ok b => E a b | Err e, Err f => e = f | _, _ => False end.
Definition fresh (n : nat) (p q : nat) : Prop := p = q /\ (n <= p)%nat.
Definition content_eq (a b : arr) : Prop := a_content a = a_content b.
Lemma sim_bind : forall A B n (m m2 : M A) (f f2 : A -> M B) E F, sim n m m2 E -> (forall a b, E a b -> sim n (f a) (f2 b) F) -> sim n (mbind m f) (mbind m2 f2) F.
Proof.
  intros A B n m m2 f f2 E F Hm Hf h h2 H. unfold mbind. specialize (Hm h h2 H). destruct (m h) as [h1 r], (m2 h2) as [h3 r2]. destruct Hm as (K & L).
  destruct r as [a|e], r2 as [b|e2]; try contradiction; [apply Hf; assumption|split; assumption].
Qed.
Lemma sim_ret : forall A n (a b : A) (E : A -> A -> Prop), E a b -> sim n (ret a) (ret b) E.
Proof. intros A n a b E H h h2 K. cbn. auto. Qed.
Lemma sim_lift : forall A n (r : result A), sim n (lift r) (lift r) eq.
Proof. intros A n r h h2 K. cbn. split; [exact K|]. destruct r; reflexivity. Qed.
Lemma sim_load : forall n p, sim n (load p) (load p) content_eq.
Proof. intros n p h h2 K. cbn. split; [exact K|]. symmetry. apply K. Qed.
Lemma sim_value : forall n g, sim n (value g) (value (floating_given g)) content_eq.
Proof. intros n [p|a]; cbn; [apply sim_load|apply sim_ret; reflexivity]. Qed.
Lemma sim_loadf : forall n p, (n <= p)%nat -> sim n (load p) (load p) eq.
Proof. intros n p L h h2 K. cbn. split; [exact K|]. symmetry. apply K. exact L. Qed.
Lemma sim_alloc : forall n a, sim n (alloc a) (alloc a) (fresh n).
Proof.
  intros n a h h2 (K1 & K2 & K3 & K4). cbn. rewrite K2. split; [|split; [reflexivity|exact K1]].
  split; [cbn; lia|]. split; [cbn; lia|]. split; intros p; cbn; destruct (Nat.eqb p (next h)); auto.
Qed.
Lemma sim_inplace : forall n p f, (n <= p)%nat -> sim n (inplace p f) (inplace p f) eq.
Proof.
  intros n p f L. unfold inplace. eapply sim_bind; [apply sim_loadf; exact L|]. intros a ? <-. destruct (a_type a); [apply sim_lift|].
  eapply sim_bind; [apply sim_lift|]. intros c ? <-.
  intros h h2 (K1 & K2 & K3 & K4). cbn. split; [|reflexivity]. split; [exact K1|]. split; [exact K2|]. split; intros q; cbn; destruct (Nat.eqb q p); auto.
Qed.
Lemma table_eq : forall a b, content_eq a b -> as_table a = as_table b.
Proof. unfold content_eq, as_table. intros a b ->. reflexivity. Qed.
Lemma flat_eq : forall a b, content_eq a b -> as_flat a = as_flat b.
Proof. unfold content_eq, as_flat. intros a b ->. reflexivity. Qed.
Lemma vec_eq : forall a b, content_eq a b -> as_vec a = as_vec b.
Proof. unfold content_eq, as_vec. intros a b ->. reflexivity. Qed.
Ltac sm := lazymatch goal with
  | |- sim _ (mbind (value _) _) _ _ => eapply sim_bind; [apply sim_value | intros ? ? ?]
  | H : content_eq ?a ?b |- sim _ (mbind (lift (as_table ?a)) _) (mbind (lift (as_table ?b)) _) _ => rewrite (table_eq a b H)
  | H : content_eq ?a ?b |- sim _ (mbind (lift (as_flat ?a)) _) (mbind (lift (as_flat ?b)) _) _ => rewrite (flat_eq a b H)
  | H : content_eq ?a ?b |- sim _ (mbind (lift (as_vec ?a)) _) (mbind (lift (as_vec ?b)) _) _ => rewrite (vec_eq a b H)
  | _ => idtac end;
  lazymatch goal with
  | |- sim _ (mbind (lift ?r) _) (mbind (lift ?r) _) _ => eapply sim_bind; [apply sim_lift | intros ? ? <-]
  | |- sim _ (mbind (floats _) _) _ _ => eapply sim_bind; [apply sim_alloc | intros ? ? [<- ?] ]
  | |- sim _ (mbind (inplace _ _) _) _ _ => eapply sim_bind; [apply sim_inplace; assumption | intros ? ? <-]
  | H : (_ <= ?p)%nat |- sim _ (mbind (load ?p) _) _ _ => eapply sim_bind; [apply sim_loadf; exact H | intros ? ? <-]
  | |- sim _ (mbind (load ?p) _) _ _ => eapply sim_bind; [apply sim_load | intros ? ? ?]
  | |- sim _ (floats _) (floats _) _ => apply sim_alloc
  | |- sim _ (ret _) (ret _) _ => apply sim_ret; first [reflexivity | split; [reflexivity|assumption] | idtac]
  | _ => idtac
  end.
Lemma sim_projection : forall n v d v2 d2, (forall h, alike n h h -> True) -> sim n (value v) (value v2) content_eq -> sim n (value d) (value d2) content_eq -> sim n (projection v d) (projection v2 d2) (fresh n).
Proof.
  intros n v d v2 d2 _ Hv Hd. unfold projection. eapply sim_bind; [exact Hv|]. intros a b Hab. eapply sim_bind; [exact Hd|]. intros x y Hxy.
  repeat sm.
Qed.
Lemma sim_one : forall n m m2, sim n m m2 (fresh n) -> sim n (one m) (one m2) eq.
Proof. intros n m m2 H. unfold one. eapply sim_bind; [exact H|]. intros a b [-> _]. apply sim_ret. reflexivity. Qed.
Lemma sim_rsd : forall n p v f los, sim n (rsd_positions p v f los) (rsd_positions p v f los) (fresh n).
Proof.
  intros. unfold rsd_positions. eapply sim_bind with (E := fresh n).
  - unfold displacement. do 5 sm. eapply sim_bind; [apply sim_projection; [auto|apply sim_load|apply sim_load]|]. intros ? ? [<- ?]. repeat sm.
  - intros r ? [<- L]. eapply sim_bind; [apply sim_load|]. intros a b Hab. eapply sim_bind; [apply sim_loadf; exact L|]. intros y ? <-. unfold content_eq in Hab. rewrite Hab. repeat sm.
Qed.
Lemma sim_wrap : forall n degree g, sim n (wrap degree g) (wrap degree (floating_given g)) (fresh n).
Proof. intros. unfold wrap. repeat sm. Qed.
Lemma alike_more : forall n k h h2, alike n h h2 -> (n <= k)%nat -> (k <= next h)%nat -> alike k h h2.
Proof. intros n k h h2 (A & B & C & D) L K. repeat split; auto. intros p Hp. apply D. lia. Qed.
Definition same_outcome (x y : memory * result (list nat)) : Prop :=
  snd x = snd y /\ (forall p, a_content (cells (fst x) p) = a_content (cells (fst y) p)) /\ (forall l p, snd x = Ok l -> In p l -> cells (fst x) p = cells (fst y) p).
Lemma sim_outcome : forall n m m2 h h2, sim n m m2 (fun a b => a = b /\ Forall (fun p => (n <= p)%nat) a) -> alike n h h2 -> same_outcome (m h) (m2 h2).
Proof.
  intros n m m2 h h2 S K. specialize (S h h2 K). destruct (m h) as [h' r], (m2 h2) as [h3 r2]. destruct S as ((A & B & C & D) & E).
  destruct r as [a|e], r2 as [b|e2]; try contradiction.
  - destruct E as (<- & F). split; [reflexivity|]. split; [intro p; symmetry; apply C|]. cbn. intros l p Hl Hp. assert (l = a) as -> by congruence.
    symmetry. apply D. rewrite Forall_forall in F. auto.
  - subst e2. split; [reflexivity|]. split; [intro p; symmetry; apply C|]. cbn. discriminate.
Qed.
Lemma one_outcome : forall n m m2 h h2, sim n m m2 (fresh n) -> alike n h h2 -> same_outcome (one m h) (one m2 h2).
Proof.
  intros n m m2 h h2 S K. apply (sim_outcome n); [|exact K]. unfold one. eapply sim_bind; [exact S|]. intros a b [<- L]. apply sim_ret. split; [reflexivity|]. repeat constructor. exact L.
Qed.
(** Copies of the argument: later arrays are alike. *)
Lemma copy_outcome : forall g (k : nat -> M nat) h h2, alike (next h) h h2 ->
  (forall h1 h3 p, alike (next h) h h2 -> p = next h -> content_eq (cells h1 p) (cells h3 p) -> alike (S (next h)) h1 h3 -> same_outcome (one (k p) h1) (one (k p) h3)) ->
  same_outcome (one (mbind (nparray g) k) h) (one (mbind (nparray (floating_given g)) k) h2).
Proof.
  intros g k h h2 K H. pose proof K as (A & B & C & D).
  assert (V : forall a b, content_eq a b -> same_outcome (one (k (next h)) (fst (alloc a h))) (one (k (next h)) (fst (alloc b h2)))).
  { intros a b E. apply H; [exact K|reflexivity| |].
    - cbn. rewrite B, Nat.eqb_refl. exact E.
    - cbn. rewrite B. split; [cbn; lia|]. split; [cbn; lia|]. split; intros p; cbn; destruct (Nat.eqb_spec p (next h)); auto; intros; try lia. apply D. lia. }
  destruct g as [p|a].
  - specialize (V (cells h p) (cells h2 p) (eq_sym (C p))). unfold one, nparray, mbind in *. cbn in *. rewrite !B in *. exact V.
  - specialize (V a (as_float a) eq_refl). unfold one, nparray, mbind in *. cbn in *. rewrite !B in *. exact V.
Qed.
(** The same is returned, or raised, for integers and for the same numbers as floats: lines of sight, angles, cartesian_to_sky, projections, isometries, redshift-space
    positions, ranges of boxes, and remapping of vectors without translation. *)
Theorem C79_same : forall c h, indifferent c = true ->
  let '(h1, r1) := perform c h in let '(h2, r2) := perform (floating c) (floating_memory h) in
  r1 = r2 /\ (forall p, a_content (cells h1 p) = a_content (cells h2 p)) /\ (forall l p, r1 = Ok l -> In p l -> cells h1 p = cells h2 p).
Proof.
  intros c h0 Hc.
  assert (G : same_outcome (perform c h0) (perform (floating c) (floating_memory h0))); [|destruct (perform c h0), (perform (floating c) (floating_memory h0)); exact G].
  assert (K : alike (next h0) h0 (floating_memory h0)).
  { split; [lia|]. split; [reflexivity|]. split; [intros p|intros p Hp]; unfold floating_memory; cbn [cells]; destruct (Nat.ltb_spec p (next h0)); try reflexivity; lia. }
  destruct c; cbn [perform floating]; try discriminate Hc.
  - apply (one_outcome (next h0)); [|exact K]. unfold los_vector. repeat sm.
  - apply (one_outcome (next h0)); [|exact K]. apply sim_wrap.
  - apply (sim_outcome (next h0)); [|exact K]. unfold to_sky. repeat sm. split; [reflexivity|]. repeat (constructor; [assumption|]). constructor.
  - apply (one_outcome (next h0)); [|exact K]. apply sim_projection; auto using sim_value.
  - apply (one_outcome (next h0)); [|exact K]. unfold apply_isometry. do 3 sm. eapply sim_bind with (E := eq); [destruct ti; repeat sm; apply sim_inplace; assumption|]. intros ? ? <-. sm.
  - cbn in Hc. subst ti. unfold cuboid_transform. apply copy_outcome; [exact K|]. intros h1 h3 p _ -> E L. apply (one_outcome (S (next h0))); [|exact L]. repeat sm.
  - cbn in Hc. subst ti. unfold cuboid_inverse. apply copy_outcome; [exact K|]. intros h1 h3 p _ -> E L. apply (one_outcome (S (next h0))); [|exact L]. repeat sm.
  - apply (one_outcome (next h0)); [|exact K]. apply sim_rsd.
  - apply (one_outcome (next h0)); [|exact K]. unfold ra_range. eapply sim_bind; [apply sim_wrap|]. intros ? ? [<- ?]. repeat sm.
Qed.
Print Assumptions C79_same.
(** Concrete: integer positions are turned and moved as the same floats. *)
Definition integer_memory : memory :=
  Memory (fun p => match p with 0%nat => Arr DInt (Table [V 1 2 3]) | 1%nat => Arr DInt (Vec (V 3 0 0)) | 2%nat => Arr DInt (Flat [1000]) | 3%nat => Arr DInt (Flat [60]) | _ => Arr DInt (Flat [0]) end) 5.
Example C79_same_case : indifferent (Isometry (Iso mid (V (1 / 2) 0 0)) false (Ref 0)) = true /\
  returns (Isometry (Iso mid (V (1 / 2) 0 0)) false (Ref 0)) integer_memory [Arr DFloat (Table [V (3 / 2) 2 3])].
Proof.
  split; [reflexivity|]. unfold returns. run. eexists; eexists; split; [reflexivity|]. cbn.
  replace (vadd _ _) with (V (3 / 2) 2 3); [reflexivity|]. unfold tensordot1, vadd, mid, mapply, vdot; cbn. f_equal; field.
Qed.

(** Remapping integer positions raises, whatever the basis and the positions; floats are remapped. *)
Theorem C79_remap_refuted : forall u1 u2 u3 size x h p, unimodular u1 u2 u3 -> positive size -> in_box size x -> (p < next h)%nat -> cells h p = Arr DInt (Table [x]) ->
  exists c y, cuboid_new (real u1) (real u2) (real u3) size = Ok c /\ raises (CuboidTransform c false (Ref p)) h TypeError /\ raises (CuboidInverse c false (Ref p)) h TypeError /\
    returns (CuboidTransform c false (Ref p)) (floating_memory h) [Arr DFloat (Table [y])].
Proof.
  intros u1 u2 u3 size x h p U S B L C. destruct (C22_round_trip u1 u2 u3 size U S) as (c & Ec & T). destruct (T x B) as (y & _ & Y & _).
  exists c, y. split; [exact Ec|]. split; [|split].
  - unfold raises. run. rewrite C. eb. eexists; reflexivity.
  - unfold raises. run. rewrite C. eb. eexists; reflexivity.
  - apply (proj1 (proj2 (proj2 (proj2 (proj2 (C55_values (floating_memory h) p p)))))) with (l := [x]).
    + unfold floating_memory. cbn [cells]. apply Nat.ltb_lt in L. rewrite L, C. reflexivity.
    + unfold cu_transform. cbn [map_result]. rewrite Y. reflexivity.
Qed.
Print Assumptions C79_remap_refuted.
Example C79_remap_case : unimodular (0, 1, 1)%Z (1, 0, 1)%Z (0, 1, 0)%Z /\ positive (V 10 10 10) /\ in_box (V 10 10 10) (V 1 2 3) /\ cells integer_memory 0 = Arr DInt (Table [V 1 2 3]).
Proof. split; [reflexivity|]. unfold positive, in_box; cbn. repeat split; lra. Qed.
(** So does rotation_matrix_from_two_vectors. *)
Theorem C79_two_vectors_refuted : forall h p q u v, (p < next h)%nat -> (q < next h)%nat -> p <> q -> cells h p = Arr DInt (Vec u) -> a_content (cells h q) = Vec v -> u <> vzero -> v <> vzero ->
  raises (TwoVectors (Ref p) (Ref q)) h TypeError /\ exists m, returns (TwoVectors (Ref p) (Ref q)) (floating_memory h) [Arr DFloat (Matrix m)].
Proof.
  intros h p q u v Lp Lq D Cp Cq U V. split.
  - unfold raises. run. rewrite Cp. cbn. eexists; reflexivity.
  - apply Nat.ltb_lt in Lp as Lp'. apply Nat.ltb_lt in Lq as Lq'.
    destruct (C55_overwritten p q (floating_memory h) u v) as (h' & m & E & _ & _ & R); auto.
    + unfold floating_memory; cbn [cells]. rewrite Lp', Cp. reflexivity.
    + unfold floating_memory; cbn [cells]. rewrite Lq'. unfold as_float. rewrite Cq. reflexivity.
    + destruct (rotation_matrix_from_two_vectors u v) as [ [ [mat a] b] |e] eqn:Q.
      * exists mat, h', [m]. split; [exact E|]. cbn. rewrite (R mat a b eq_refl). reflexivity.
      * exfalso. revert Q. unfold rotation_matrix_from_two_vectors. rewrite (normalize_ok u U), (normalize_ok v V). cbn [bind]. destruct (Req_EM_T _ 0); discriminate.
Qed.
Print Assumptions C79_two_vectors_refuted.
(** sky_to_cartesian gives other positions: at distance 1000 towards (60, 0), the observer. *)
Theorem C79_sky_refuted : exists h d r e v, returns (ToCartesian true (Ref d) (Ref r) (Ref e)) h [Arr DInt (Table [vzero])] /\
  returns (ToCartesian true (Ref d) (Ref r) (Ref e)) (floating_memory h) [Arr DFloat (Table [v])] /\ vx v = 500.
Proof.
  exists integer_memory, 2%nat, 3%nat, 4%nat, (sky_to_cartesian true None (NFloat 1000) (NFloat 60) (NFloat 0)). split; [|split].
  - assert (F : forall z, Rfloor (IZR z) = z) by (intros; apply Rfloor_IZR).
    unfold returns. cbv beta iota delta [perform one mbind ret lift load alloc store floats value as_flat to_cartesian]. cbn -[sky_to_cartesian number].
    eexists; eexists; split; [reflexivity|]. cbn -[sky_to_cartesian number]. unfold number. rewrite !F, sky_int_zero. reflexivity.
  - unfold returns. cbv beta iota delta [perform one mbind ret lift load alloc store floats value as_flat to_cartesian]. cbn -[sky_to_cartesian number].
    eexists; eexists; split; [reflexivity|]. cbn -[sky_to_cartesian number]. reflexivity.
  - unfold sky_to_cartesian; cbn [num_val result_type3 num_dtype store_as conversion vscale vx]. rewrite Rmult_0_l, cos_0, cos60_deg. lra.
Qed.
Print Assumptions C79_sky_refuted.
(** Shuffling integer positions raises. *)
Theorem C79_shuffle_refuted : forall h p l frac u permute parts, (p < next h)%nat -> cells h p = Arr DInt (Table l) -> shuffle_parts false frac [u] permute [l] = Ok parts ->
  raises (Shuffle frac u permute (Ref p)) h ValueError /\ returns (Shuffle frac u permute (Ref p)) (floating_memory h) [Arr DFloat (Table (List.concat parts))].
Proof.
  intros h p l frac u permute parts L C E. split.
  - unfold raises. cbv beta iota delta [perform one mbind ret lift load alloc store floats asarray value nparray inplace as_table shuffled]. rewrite C. cbn -[shuffle_parts]. rewrite Nat.eqb_refl. cbn. eexists; reflexivity.
  - apply (proj2 (proj2 (proj2 (proj2 (proj2 (proj2 (proj2 (C55_values (floating_memory h) p p)))))))) with (l := l); [|exact E].
    unfold floating_memory; cbn [cells]. apply Nat.ltb_lt in L. rewrite L, C. reflexivity.
Qed.
Print Assumptions C79_shuffle_refuted.
Example C79_shuffle_case : shuffle_parts false 0 [[1 / 2]] (fun l => l) [[V 1 2 3]] = Ok [[V 1 2 3]].
Proof. unfold shuffle_parts. cbn. rewrite (proj2 (Rltb_false (1 / 2) 0)) by lra. cbn. reflexivity. Qed.
