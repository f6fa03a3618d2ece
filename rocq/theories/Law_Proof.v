(** Proofs about independent draws and rejection. *)
Require Import Reals Lra Lia ZArith List Bool FinFun FunctionalExtensionality.
From Verif Require Import Base Sky_Model Cutsky_Model Mask_Model Sample_Model Sample_Spec Sample_Proof Sample_Thm Law_Spec.
Import ListNotations.
Open Scope R_scope.

Section L.
Context {X : Type}.
Variable vals : list X.
Lemma rsum_lin : forall (l : list X) a b (g h : X -> R), Rsum (map (fun x => a * g x + b * h x) l) = a * Rsum (map g l) + b * Rsum (map h l).
Proof. induction l as [|x l IH]; intros; cbn; [ring|]. unfold Rsum in *. rewrite IH. ring. Qed.
Lemma avg_lin : forall a b g h, avg vals (fun x => a * g x + b * h x) = a * avg vals g + b * avg vals h.
Proof. intros. unfold avg. rewrite rsum_lin. unfold Rdiv. ring. Qed.
Lemma avg_ext : forall g h, (forall x, g x = h x) -> avg vals g = avg vals h.
Proof. intros g h H. unfold avg. f_equal. f_equal. apply map_ext. exact H. Qed.
Lemma avg_scal : forall a g, avg vals (fun x => a * g x) = a * avg vals g.
Proof. intros. rewrite (avg_ext _ (fun x => a * g x + 0 * g x)) by (intros; ring). rewrite avg_lin. ring. Qed.
Lemma avg_plus : forall g h, avg vals (fun x => g x + h x) = avg vals g + avg vals h.
Proof. intros. rewrite (avg_ext _ (fun x => 1 * g x + 1 * h x)) by (intros; ring). rewrite avg_lin. ring. Qed.
Lemma rsum_one : forall l : list X, Rsum (map (fun _ => 1) l) = INR (length l).
Proof. induction l as [|x l IH]; [reflexivity|]. cbn [map length]. rewrite S_INR. unfold Rsum in *. cbn [fold_right]. rewrite IH. ring. Qed.
Lemma avg_const : forall c, vals <> [] -> avg vals (fun _ => c) = c.
Proof.
  intros c H. rewrite (avg_ext _ (fun _ => c * 1)) by (intros; ring). rewrite avg_scal. unfold avg. rewrite rsum_one.
  unfold Rdiv. rewrite Rinv_r; [ring|]. apply not_0_INR. destruct vals; [tauto|cbn; lia].
Qed.

Lemma set_same : forall {Y} (s : place -> Y) k x, set_at s k x k = x.
Proof. intros. unfold set_at. destruct (place_dec k k); tauto. Qed.
Lemma set_other : forall {Y} (s : place -> Y) k x k', k <> k' -> set_at s k x k' = s k'.
Proof. intros. unfold set_at. destruct (place_dec k k'); tauto. Qed.

Lemma mean_ext : forall ks g h s, (forall s, g s = h s) -> mean vals ks g s = mean vals ks h s.
Proof. induction ks as [|k ks IH]; intros g h s H; cbn; auto. apply avg_ext. intros x. apply IH, H. Qed.
Lemma mean_lin : forall ks a b g h s, mean vals ks (fun s => a * g s + b * h s) s = a * mean vals ks g s + b * mean vals ks h s.
Proof. induction ks as [|k ks IH]; intros; cbn; auto. rewrite (avg_ext _ _ (fun x => IH a b g h (set_at s k x))). apply avg_lin. Qed.
Lemma mean_scal : forall ks a g s, mean vals ks (fun s => a * g s) s = a * mean vals ks g s.
Proof. intros. rewrite (mean_ext _ _ (fun s => a * g s + 0 * g s)) by (intros; ring). rewrite mean_lin. ring. Qed.
Lemma mean_zero : forall ks s, mean vals ks (fun _ => 0) s = 0.
Proof. intros. rewrite (mean_ext _ _ (fun s => 0 * 1)) by (intros; ring). rewrite mean_scal. ring. Qed.
(** A place that is not in the list keeps its value. *)
Lemma mean_fix : forall ks k (F : X -> (place -> X) -> R) s, ~ In k ks -> mean vals ks (fun t => F (t k) t) s = mean vals ks (fun t => F (s k) t) s.
Proof.
  induction ks as [|k' ks IH]; intros k F s N; cbn; auto. apply avg_ext. intros x. rewrite IH by (intros C; apply N; right; auto).
  rewrite set_other; auto. intros ->. apply N. left; auto.
Qed.
Lemma mean_prod : forall ks (h : place -> X -> R) s, NoDup ks ->
  mean vals ks (fun t => Rprod (map (fun k => h k (t k)) ks)) s = Rprod (map (fun k => avg vals (h k)) ks).
Proof.
  induction ks as [|k ks IH]; intros h s N; cbn; auto. inversion N as [|? ? N1 N2]; subst. cbn [map Rprod fold_right].
  transitivity (avg vals (fun x => Rprod (map (fun k => avg vals (h k)) ks) * h k x)).
  - apply avg_ext. intros x. rewrite (mean_fix ks k (fun y t => h k y * Rprod (map (fun k => h k (t k)) ks)) _ N1).
    rewrite mean_scal, set_same. unfold Rprod in IH. unfold Rprod. rewrite IH by auto. ring.
  - rewrite avg_scal. unfold Rprod. ring.
Qed.

(** Sum over all patterns of acceptance. *)
Fixpoint patterns (ks : list place) (g : (place -> bool) -> R) (b : place -> bool) : R :=
  match ks with [] => g b | k :: ks => patterns ks g (set_at b k true) + patterns ks g (set_at b k false) end.
Lemma patterns_ext : forall ks g h b, (forall b, g b = h b) -> patterns ks g b = patterns ks h b.
Proof. induction ks as [|k ks IH]; intros g h b H; cbn; auto. rewrite (IH g h), (IH g h (set_at b k false)) by auto. reflexivity. Qed.
Lemma patterns_scal : forall ks a g b, patterns ks (fun b => a * g b) b = a * patterns ks g b.
Proof. induction ks as [|k ks IH]; intros; cbn; auto. rewrite !IH. ring. Qed.
Lemma patterns_fix : forall ks k (F : bool -> (place -> bool) -> R) b, ~ In k ks -> patterns ks (fun t => F (t k) t) b = patterns ks (fun t => F (b k) t) b.
Proof.
  induction ks as [|k' ks IH]; intros k F b N; cbn; auto.
  assert (D : k' <> k) by (intros ->; apply N; left; auto). assert (N' : ~ In k ks) by (intros C; apply N; right; auto).
  rewrite !IH by auto. rewrite !set_other by auto. reflexivity.
Qed.
Lemma avg_patterns : forall ks (g : X -> (place -> bool) -> R) b, avg vals (fun x => patterns ks (g x) b) = patterns ks (fun b => avg vals (fun x => g x b)) b.
Proof. induction ks as [|k ks IH]; intros; cbn; auto. rewrite avg_plus, !IH. reflexivity. Qed.

Variable acc : X -> bool.
Definition match_at (b : place -> bool) (s : place -> X) (k : place) : R := ind (Bool.eqb (acc (s k)) (b k)).
Lemma pattern_split : forall ks (K : (place -> bool) -> (place -> X) -> R) s, NoDup ks ->
  mean vals ks (fun t => K (fun k => acc (t k)) t) s =
  patterns ks (fun b => mean vals ks (fun t => Rprod (map (match_at b t) ks) * K b t) s) (fun k => acc (s k)).
Proof.
  induction ks as [|k ks IH]; intros K s N; cbn [mean patterns map Rprod fold_right]; [ring|]. inversion N as [|? ? N1 N2]; subst.
  assert (E : forall x, (fun k' => acc (set_at s k x k')) = set_at (fun k' => acc (s k')) k (acc x)).
  { intros x. extensionality k'. unfold set_at. destruct (place_dec k k'); auto. }
  set (b0 := fun k' => acc (s k')) in *.
  set (G := fun x b => mean vals ks (fun t => Rprod (map (match_at b t) ks) * K b t) (set_at s k x)).
  transitivity (avg vals (fun x => ind (Bool.eqb (acc x) true) * patterns ks (G x) (set_at b0 k true) + ind (Bool.eqb (acc x) false) * patterns ks (G x) (set_at b0 k false))).
  { apply avg_ext. intros x. rewrite IH by auto. rewrite E. fold (G x). destruct (acc x); cbn [ind Bool.eqb]; ring. }
  assert (H : forall c, avg vals (fun x => ind (Bool.eqb (acc x) c) * patterns ks (G x) (set_at b0 k c)) =
    patterns ks (fun b => avg vals (fun x => mean vals ks (fun t => match_at b t k * Rprod (map (match_at b t) ks) * K b t) (set_at s k x))) (set_at b0 k c)).
  { intros c. rewrite (avg_ext _ (fun x => patterns ks (fun b => ind (Bool.eqb (acc x) c) * G x b) (set_at b0 k c))) by (intros; rewrite patterns_scal; reflexivity).
    rewrite avg_patterns.
    transitivity (patterns ks (fun b => avg vals (fun x => ind (Bool.eqb (acc x) (b k)) * G x b)) (set_at b0 k c)).
    - rewrite (patterns_fix ks k (fun d b => avg vals (fun x => ind (Bool.eqb (acc x) d) * G x b)) _ N1), set_same. reflexivity.
    - apply patterns_ext. intros b. apply avg_ext. intros x. unfold match_at at 1.
      rewrite (mean_fix ks k (fun y t => ind (Bool.eqb (acc y) (b k)) * Rprod (map (match_at b t) ks) * K b t) _ N1), set_same.
      rewrite (mean_ext _ _ (fun t => ind (Bool.eqb (acc x) (b k)) * (Rprod (map (match_at b t) ks) * K b t))) by (intros; ring).
      rewrite mean_scal. reflexivity. }
  rewrite avg_plus, !H. reflexivity.
Qed.

(** Changing one factor of a product. *)
Lemma prod_point : forall (ks : list place) j (u v : place -> R) c, NoDup ks -> In j ks -> (forall k, k <> j -> v k = u k) -> v j = c * u j ->
  Rprod (map v ks) = c * Rprod (map u ks).
Proof.
  induction ks as [|k ks IH]; intros j u v c N I E J; [destruct I|]. inversion N as [|? ? N1 N2]; subst. cbn [map Rprod fold_right]. destruct I as [->|I].
  - rewrite J. assert (M : map v ks = map u ks) by (apply map_ext_in; intros k' Hk; apply E; intros ->; tauto). rewrite M. ring.
  - unfold Rprod in IH. rewrite (IH j u v c) by auto. rewrite E by (intros ->; tauto). ring.
Qed.
Lemma prod_mult : forall (ks : list place) (u v : place -> R), Rprod (map (fun k => u k * v k) ks) = Rprod (map u ks) * Rprod (map v ks).
Proof. induction ks as [|k ks IH]; intros; cbn; [ring|]. unfold Rprod in IH. rewrite IH. ring. Qed.
End L.

(** Quantities at chosen places, 1 elsewhere. *)
Fixpoint chosen {A} (js : list place) (fs : list (A -> R)) (k : place) : A -> R :=
  match js, fs with j :: js, f :: fs => if place_dec j k then f else chosen js fs k | _, _ => fun _ => 1 end.
Lemma chosen_out : forall {A} js (fs : list (A -> R)) k, ~ In k js -> chosen js fs k = fun _ => 1.
Proof.
  induction js as [|j js IH]; intros [|f fs] k N; auto. cbn. destruct (place_dec j k) as [->|_]; [exfalso; apply N; left; auto|].
  apply IH. intros C; apply N; right; auto.
Qed.
Lemma chosen_prod : forall {A} js (fs : list (A -> R)) ks (y : place -> A), NoDup js -> NoDup ks -> incl js ks ->
  Rprod (map (fun k => chosen js fs k (y k)) ks) = joint fs (map y js).
Proof.
  assert (ONE : forall (A : Type) ks (y : place -> A), Rprod (map (fun k => (fun _ : A => 1) (y k)) ks) = 1).
  { intros A ks y. induction ks as [|k ks IH]; cbn; [auto|]. unfold Rprod in IH. rewrite IH. ring. }
  intros A. induction js as [|j js IH]; intros [|f fs] ks y NJ NK I.
  1-3: exact (ONE A ks y).
  inversion NJ as [|? ? N1 N2]; subst. cbn [map joint].
  rewrite (prod_point ks j (fun k => chosen js fs k (y k)) _ (f (y j)) NK (I j (or_introl eq_refl))).
  - rewrite IH; auto. intros k Hk. apply I. right; auto.
  - intros k D. cbn. destruct (place_dec j k); [congruence|reflexivity].
  - cbn. destruct (place_dec j j); [|tauto]. rewrite chosen_out by auto. ring.
Qed.

(** Sampling is natural in what is sampled. *)
Lemma loop_map : forall {A B} (v : B -> A) (prob : A -> R) (prob' : B -> R) draws draws',
  (forall k r, accepted prob (draws k r) = map v (accepted prob' (draws' k r))) ->
  forall fuel k acc d, sample_loop prob draws fuel k (map (map v) acc) d =
    match sample_loop prob' draws' fuel k acc d with Ok (n, l) => Ok (n, map (map v) l) | Err e => Err e end.
Proof.
  intros A B v prob prob' draws draws' H. assert (R : forall k n, round prob draws k n = map (map v) (round prob' draws' k n)).
  { intros k n. unfold round. rewrite map_map. apply map_ext. intros r. apply H. }
  induction fuel as [|fuel IH]; intros k acc d; cbn [sample_loop]; destruct (0 <? allreduce d)%Z; auto.
  rewrite map_length, R.
  replace (zip_with (@app A) (map (map v) acc) (map (map v) (round prob' draws' k (length acc)))) with (map (map v) (zip_with (@app B) acc (round prob' draws' k (length acc)))).
  2:{ unfold zip_with. generalize (round prob' draws' k (length acc)). clear. induction acc as [|x acc IH]; intros [|y l]; cbn; auto. rewrite map_app, <- IH. reflexivity. }
  rewrite IH. replace (zip_with (fun d t => (d - Z.of_nat (length t))%Z) d (map (map v) (round prob' draws' k (length acc)))) with
    (zip_with (fun d t => (d - Z.of_nat (length t))%Z) d (round prob' draws' k (length acc))); auto.
  unfold zip_with. generalize (round prob' draws' k (length acc)). clear. induction d as [|x d IH]; intros [|y l]; cbn; auto. rewrite map_length, <- IH. reflexivity.
Qed.
Lemma sample_map : forall {A B} (v : B -> A) (prob : A -> R) (prob' : B -> R) draws draws' fuel sizes,
  (forall k r, accepted prob (draws k r) = map v (accepted prob' (draws' k r))) ->
  sample prob draws fuel sizes = match sample prob' draws' fuel sizes with Ok l => Ok (map (map v) l) | Err e => Err e end.
Proof.
  intros A B v prob prob' draws draws' fuel sizes H. unfold sample.
  replace (map (fun _ : nat => @nil A) sizes) with (map (map v) (map (fun _ : nat => @nil B) sizes)) by (rewrite map_map; reflexivity).
  rewrite (loop_map v prob prob' draws draws' H). destruct (sample_loop prob' draws' fuel 0 _ _) as [[n l]|e]; auto. cbn [bind]. destruct n; auto.
  f_equal. rewrite map_map. apply map_ext. intros r. unfold global_slice. rewrite <- concat_map, skipn_map, firstn_map. reflexivity.
Qed.

(** Which places are returned, for a pattern of acceptance: the same sampling, of places instead of values. *)
Definition tag_prob (b : place -> bool) (k : place) : R := ind (b k).
Definition tags (sizes : list nat) (k r : nat) : list (place * R) := map (fun i => ((k, r, i), 1 / 2)) (seq 0 (nth r sizes 0%nat)).
Definition returned (fuel : nat) (sizes : list nat) (b : place -> bool) : option (list place) :=
  match sample (tag_prob b) (tags sizes) fuel sizes with Ok out => Some (concat out) | Err _ => None end.
Lemma tags_accepted : forall b sizes k r, accepted (tag_prob b) (tags sizes k r) = filter b (map (fun i => (k, r, i)) (seq 0 (nth r sizes 0%nat))).
Proof.
  intros b sizes k r. unfold accepted, tags. generalize (seq 0 (nth r sizes 0%nat)). induction l as [|i l IH]; auto. cbn [map filter fst snd].
  unfold tag_prob at 1. destruct (b (k, r, i)); cbn [ind].
  - rewrite (proj2 (Rleb_true (1 / 2) 1)) by lra. cbn [map fst]. f_equal. exact IH.
  - rewrite (proj2 (Rleb_false (1 / 2) 0)) by lra. exact IH.
Qed.
Lemma drawn_accepted : forall {A} (prob : A -> R) sizes (s : place -> A * R) k r,
  accepted prob (drawn sizes s k r) = map (fun k => fst (s k)) (accepted (tag_prob (fun k => Rleb (snd (s k)) (prob (fst (s k))))) (tags sizes k r)).
Proof.
  intros A prob sizes s k r. rewrite tags_accepted. unfold accepted, drawn. generalize (seq 0 (nth r sizes 0%nat)). induction l as [|i l IH]; auto. cbn [map filter].
  destruct (Rleb _ _); cbn [map]; rewrite IH; reflexivity.
Qed.

Lemma NoDup_flat : forall {A B} (f : A -> list B) l, NoDup l -> (forall a, In a l -> NoDup (f a)) ->
  (forall a a' x, In a l -> In a' l -> In x (f a) -> In x (f a') -> a = a') -> NoDup (flat_map f l).
Proof.
  intros A B f. induction l as [|a l IH]; intros N D E; [constructor|]. inversion N as [|? ? N1 N2]; subst. cbn.
  assert (APP : forall u v : list B, NoDup u -> NoDup v -> (forall x, In x u -> ~ In x v) -> NoDup (u ++ v)).
  { clear. induction u as [|x u IH]; intros v U V H; auto. inversion U; subst. cbn. constructor.
    - intros C. apply in_app_or in C. destruct C as [C|C]; [tauto|]. apply (H x (or_introl eq_refl) C).
    - apply IH; auto. intros y Hy. apply H. right; auto. }
  apply APP.
  - apply D. left; auto.
  - apply IH; auto. + intros a' Ia. apply D. right; auto. + intros a' a'' x I1 I2. apply E; right; auto.
  - intros x I C. apply in_flat_map in C. destruct C as (a' & I' & Hx). assert (a = a') by (apply (E a a' x); auto; [left; auto|right; auto]). subst. tauto.
Qed.
Lemma row_NoDup : forall (k r : nat) n, NoDup (map (fun i => (k, r, i)) (seq 0 n)).
Proof. intros k r n. apply FinFun.Injective_map_NoDup; [|apply seq_NoDup]. intros i j E. congruence. Qed.
Lemma places_NoDup : forall rounds sizes, NoDup (places rounds sizes).
Proof.
  intros rounds sizes. unfold places. apply NoDup_flat; [apply seq_NoDup| |].
  - intros k _. apply NoDup_flat; [apply seq_NoDup| |].
    + intros r _. apply row_NoDup.
    + intros r r' x _ _ I J. apply in_map_iff in I, J. destruct I as (i & <- & _), J as (j & E & _). congruence.
  - intros k k' x _ _ I J. apply in_flat_map in I, J. destruct I as (r & _ & I), J as (r' & _ & J). apply in_map_iff in I, J.
    destruct I as (i & <- & _), J as (j & E & _). congruence.
Qed.

Lemma loop_rounds : forall {A} (prob : A -> R) draws fuel k acc d n l, sample_loop prob draws fuel k acc d = Ok (n, l) -> (n <= k + fuel)%nat.
Proof.
  intros A prob draws. induction fuel as [|fuel IH]; intros k acc d n l H; cbn [sample_loop] in H; destruct (0 <? _)%Z; try discriminate.
  - injection H as -> _. lia.
  - apply IH in H. lia.
  - injection H as -> _. lia.
Qed.

Lemma returned_ok : forall fuel sizes b js, returned fuel sizes b = Some js ->
  NoDup js /\ incl js (places fuel sizes) /\ (forall k, In k js -> b k = true) /\ length js = total sizes.
Proof.
  intros fuel sizes b js H. unfold returned in H. destruct (sample (tag_prob b) (tags sizes) fuel sizes) as [out|] eqn:S; [|discriminate]. injection H as <-.
  unfold sample in S. rewrite (start_state (tag_prob b) (tags sizes)), (start_need (tag_prob b) (tags sizes)) in S.
  destruct (sample_loop _ _ _ _ _ _) as [o|] eqn:L; [|discriminate]. pose proof L as L'.
  apply loop_spec in L'. destruct L' as (n & -> & _ & T & _). apply loop_rounds in L. cbn [bind] in S. destruct n as [|n]; [discriminate|]. injection S as <-.
  rewrite cuts_eq, cuts_concat. set (l := concat (state (tag_prob b) (tags sizes) (length sizes) (Datatypes.S n))) in *.
  assert (SUB : forall x, In x (firstn (total sizes) l) -> In x l).
  { intros x I. rewrite <- (firstn_skipn (total sizes) l). apply in_or_app. auto. }
  assert (ND : NoDup l).
  { unfold l, state. rewrite <- flat_map_concat_map. apply NoDup_flat; [apply seq_NoDup| |].
    - intros r _. unfold got. apply NoDup_flat; [apply seq_NoDup| |].
      + intros k _. rewrite tags_accepted. apply NoDup_filter, row_NoDup.
      + intros k k' x _ _ I J. rewrite tags_accepted in I, J. apply filter_In in I, J. destruct I as [I _], J as [J _].
        apply in_map_iff in I, J. destruct I as (i & <- & _), J as (j & E & _). congruence.
    - intros r r' x _ _ I J. unfold got in I, J. apply in_flat_map in I, J. destruct I as (k & _ & I), J as (k' & _ & J).
      rewrite tags_accepted in I, J. apply filter_In in I, J. destruct I as [I _], J as [J _].
      apply in_map_iff in I, J. destruct I as (i & <- & _), J as (j & E & _). congruence. }
  assert (IN : forall x, In x l -> In x (places fuel sizes) /\ b x = true).
  { intros x I. unfold l, state in I. rewrite <- flat_map_concat_map in I. apply in_flat_map in I. destruct I as (r & Ir & I).
    unfold got in I. apply in_flat_map in I. destruct I as (k & Ik & I). rewrite tags_accepted in I. apply filter_In in I. destruct I as [I B]. split; auto.
    unfold places. apply in_flat_map. exists k. split; [apply in_seq in Ik; apply in_seq; lia|]. apply in_flat_map. exists r. split; auto. }
  split; [|split; [|split] ].
  - rewrite <- (firstn_skipn (total sizes) l) in ND. revert ND. generalize (firstn (total sizes) l) (skipn (total sizes) l). clear. induction l as [|x l IH]; intros m N; [constructor|].
    cbn in N. inversion N as [|? ? N1 N2]; subst. constructor; [|apply (IH m N2)]. intros C. apply N1, in_or_app. auto.
  - intros x I. apply IN, SUB, I.
  - intros x I. apply IN, SUB, I.
  - rewrite firstn_length. lia.
Qed.

(** Main computation: what a pattern of acceptance contributes. *)
Section Main.
Context {A : Type}.
Variable prob : A -> R.
Variable vals : list (A * R).
Definition keeps (x : A * R) : bool := Rleb (snd x) (prob (fst x)).
Let p := avg vals (fun x => ind (keeps x)).
Hypothesis P : p <> 0.

Definition weight (c : bool) : R := avg vals (fun x => ind (Bool.eqb (keeps x) c)).
Lemma weight_true : weight true = p.
Proof. apply avg_ext. intros x. destruct (keeps x); reflexivity. Qed.
Lemma chosen_weights : forall ks b js (fs : list (A -> R)), NoDup ks -> NoDup js -> incl js ks -> (forall k, In k js -> b k = true) -> length fs = length js ->
  Rprod (map (fun k => avg vals (fun x => ind (Bool.eqb (keeps x) (b k)) * chosen js fs k (fst x))) ks) =
  Rprod (map (given_kept prob vals) fs) * Rprod (map (fun k => weight (b k)) ks).
Proof.
  intros ks b. induction js as [|j js IH]; intros [|f fs] NK NJ I B L; try discriminate.
  - cbn [map Rprod fold_right]. rewrite Rmult_1_l. f_equal. apply map_ext. intros k. apply avg_ext. intros x. cbn. ring.
  - inversion NJ as [|? ? N1 N2]; subst. cbn [map Rprod fold_right].
    rewrite (prod_point ks j (fun k => avg vals (fun x => ind (Bool.eqb (keeps x) (b k)) * chosen js fs k (fst x))) _ (given_kept prob vals f) NK (I j (or_introl eq_refl))).
    + rewrite (IH fs NK N2 (fun k Hk => I k (or_intror Hk)) (fun k Hk => B k (or_intror Hk)) (eq_add_S _ _ L)). unfold Rprod. ring.
    + intros k D. apply avg_ext. intros x. cbn. destruct (place_dec j k); [congruence|reflexivity].
    + rewrite (chosen_out js fs j) by auto. rewrite (B j (or_introl eq_refl)).
      replace (avg vals (fun x => ind (Bool.eqb (keeps x) true) * 1)) with p by (apply avg_ext; intros x; destruct (keeps x); cbn; ring).
      unfold given_kept. fold keeps. change (avg vals (fun x => ind (Rleb (snd x) (prob (fst x))))) with p. unfold Rdiv.
      rewrite Rmult_assoc, Rinv_l, Rmult_1_r by exact P. apply avg_ext. intros x. cbn. destruct (place_dec j j); [|tauto].
      unfold keeps. destruct (Rleb _ _); reflexivity.
Qed.

Lemma law : forall fuel sizes (fs : list (A -> R)) s0, length fs = total sizes ->
  mean vals (places fuel sizes) (fun s => match sample prob (drawn sizes s) fuel sizes with Ok out => joint fs (concat out) | Err _ => 0 end) s0 =
  Rprod (map (given_kept prob vals) fs) *
  patterns (places fuel sizes) (fun b => match returned fuel sizes b with Some _ => Rprod (map (fun k => weight (b k)) (places fuel sizes)) | None => 0 end) (fun k => keeps (s0 k)).
Proof.
  intros fuel sizes fs s0 L. set (ks := places fuel sizes). assert (NK : NoDup ks) by apply places_NoDup.
  set (K := fun (b : place -> bool) (s : place -> A * R) => match returned fuel sizes b with Some js => joint fs (map (fun k => fst (s k)) js) | None => 0 end).
  rewrite (mean_ext vals ks _ (fun s => K (fun k => keeps (s k)) s)).
  2:{ intros s. unfold K, returned. rewrite (sample_map (fun k => fst (s k)) prob (tag_prob (fun k => keeps (s k))) (drawn sizes s) (tags sizes)) by (intros; apply drawn_accepted).
      destruct (sample (tag_prob _) _ _ _); auto. rewrite concat_map. reflexivity. }
  rewrite (pattern_split vals keeps ks K s0 NK), <- patterns_scal. apply patterns_ext. intros b. unfold K. destruct (returned fuel sizes b) as [js|] eqn:E.
  - apply returned_ok in E. destruct E as (NJ & I & B & LJ).
    rewrite (mean_ext vals ks _ (fun s => Rprod (map (fun k => (fun k x => ind (Bool.eqb (keeps x) (b k)) * chosen js fs k (fst x)) k (s k)) ks))).
    + rewrite (mean_prod vals ks (fun k x => ind (Bool.eqb (keeps x) (b k)) * chosen js fs k (fst x)) s0 NK). apply chosen_weights; auto. lia.
    + intros s. rewrite prod_mult. f_equal. symmetry. apply (chosen_prod js fs ks (fun k => fst (s k))); auto.
  - rewrite (mean_ext vals ks _ (fun _ => 0)) by (intros; ring). rewrite mean_zero. ring.
Qed.

Lemma joint_one : forall n (xs : list A), joint (repeat (fun _ => 1) n) xs = 1.
Proof. induction n as [|n IH]; intros [|x xs]; cbn; auto. rewrite IH. ring. Qed.
Lemma given_one : given_kept prob vals (fun _ => 1) = 1.
Proof.
  unfold given_kept. rewrite (avg_ext vals _ (fun x => ind (keeps x))) by (intros; unfold keeps; ring).
  change (avg vals (fun x => ind (Rleb (snd x) (prob (fst x))))) with p. fold p. apply Rinv_r. exact P.
Qed.

Theorem independent : forall fuel sizes (fs : list (A -> R)) s0, length fs = total sizes ->
  mean vals (places fuel sizes) (fun s => match sample prob (drawn sizes s) fuel sizes with Ok out => joint fs (concat out) | Err _ => 0 end) s0 =
  Rprod (map (given_kept prob vals) fs) *
  mean vals (places fuel sizes) (fun s => match sample prob (drawn sizes s) fuel sizes with Ok _ => 1 | Err _ => 0 end) s0.
Proof.
  intros fuel sizes fs s0 L. rewrite law by auto. f_equal.
  rewrite (mean_ext vals (places fuel sizes) _ (fun s => match sample prob (drawn sizes s) fuel sizes with Ok out => joint (repeat (fun _ => 1) (total sizes)) (concat out) | Err _ => 0 end)).
  2:{ intros s. destruct (sample _ _ _ _); auto. rewrite joint_one. reflexivity. }
  rewrite law by apply repeat_length.
  assert (R1 : forall n, Rprod (map (given_kept prob vals) (repeat (fun _ => 1) n)) = 1).
  { induction n as [|n IH]; auto. cbn [repeat map Rprod fold_right]. unfold Rprod in IH. rewrite IH, given_one. ring. }
  rewrite R1, Rmult_1_l. reflexivity.
Qed.
End Main.
