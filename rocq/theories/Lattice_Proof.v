(** Proofs about gcd, coprime triples and lattice vectors. *)
Require Import Reals Lra Lia ZArith List Bool Permutation.
From Verif Require Import Base Vec3 Isometry_Model Isometry_Proof Box_Model Box_Spec Remap_Model Remap_Spec Remap_Proof Remap_Proof3 Remap_Proof4
  Lattice_Model Lattice_Spec.
Import ListNotations.
Local Notation Z := BinNums.Z.
Open Scope Z_scope.

Lemma euclid_ok : forall fuel a b, 0 <= a -> 0 <= b -> (Z.to_nat b < fuel)%nat -> euclid fuel a b = Ok (Z.gcd a b).
Proof.
  induction fuel as [|f IH]; intros a b A B F; [lia|]. cbn [euclid]. destruct (b =? 0) eqn:E.
  - apply Z.eqb_eq in E. subst. rewrite Z.gcd_0_r_nonneg; auto.
  - apply Z.eqb_neq in E. assert (M := Z.mod_pos_bound a b ltac:(lia)). rewrite IH by lia.
    f_equal. rewrite Z.gcd_comm, Z.gcd_mod by lia. apply Z.gcd_comm.
Qed.
Lemma gcd2_ok : forall a b, gcd2 a b = Ok (Z.gcd a b).
Proof.
  intros a b. unfold gcd2. rewrite euclid_ok.
  - f_equal. destruct (a <? 0) eqn:A, (b <? 0) eqn:B; rewrite ?Z.gcd_opp_l, ?Z.gcd_opp_r; auto.
  - destruct (a <? 0) eqn:A; [apply Z.ltb_lt in A|apply Z.ltb_ge in A]; lia.
  - destruct (b <? 0) eqn:A; [apply Z.ltb_lt in A|apply Z.ltb_ge in A]; lia.
  - lia.
Qed.
Lemma gcd_list : forall l a b, gcd (a :: b :: l) = Ok (fold_right Z.gcd 0 (a :: b :: l)).
Proof.
  induction l as [|c l IH]; intros a b.
  - change (gcd [a; b]) with (gcd2 a b). rewrite gcd2_ok. f_equal. cbn [fold_right]. rewrite Z.gcd_0_r, Z.gcd_abs_r. auto.
  - change (gcd (a :: b :: c :: l)) with (do g <- gcd (b :: c :: l); gcd2 a g). rewrite IH. cbn [bind]. rewrite gcd2_ok. reflexivity.
Qed.
Lemma fold_gcd : forall l, is_gcd (fold_right Z.gcd 0 l) l.
Proof.
  induction l as [|a l (N & D & G)]; cbn [fold_right].
  - split; [lia|]. split; [intros x []|]. intros; apply Z.divide_0_r.
  - split; [apply Z.gcd_nonneg|]. split.
    + intros x [<-|I]; [apply Z.gcd_divide_l|]. eapply Z.divide_trans; [apply Z.gcd_divide_r|auto].
    + intros d C. apply Z.gcd_greatest; [apply C; left; auto|]. apply G. intros x I; apply C; right; auto.
Qed.
Lemma gcd_is_gcd : forall l, (2 <= length l)%nat -> exists g, gcd l = Ok g /\ is_gcd g l.
Proof.
  intros [|a [|b l]] H; cbn in H; try lia. eexists. split; [apply gcd_list|]. apply fold_gcd.
Qed.
Lemma is_gcd_unique : forall l g h, is_gcd g l -> is_gcd h l -> g = h.
Proof. intros l g h (N & D & G) (N' & D' & G'). apply Z.divide_antisym_nonneg; auto. Qed.

Lemma gcd3_coprime : forall i j k, Z.gcd i (Z.gcd j k) = 1 <-> coprime i j k.
Proof.
  intros i j k. split.
  - intros E d A B C. assert (H : (d | 1)) by (rewrite <- E; repeat apply Z.gcd_greatest; auto). apply Z.divide_1_r in H. auto.
  - intros C. set (g := Z.gcd i (Z.gcd j k)). assert (0 <= g) by apply Z.gcd_nonneg.
    destruct (C g); try lia; unfold g; [apply Z.gcd_divide_l| |].
    + eapply Z.divide_trans; [apply Z.gcd_divide_r|apply Z.gcd_divide_l].
    + eapply Z.divide_trans; [apply Z.gcd_divide_r|apply Z.gcd_divide_r].
Qed.
Lemma gcd_pair : forall i j, gcd [i; j] = Ok (Z.gcd i j).
Proof. intros. change (gcd [i; j]) with (gcd2 i j). apply gcd2_ok. Qed.
Lemma gcd_triple : forall i j k, gcd [i; j; k] = Ok (Z.gcd i (Z.gcd j k)).
Proof. intros. change (gcd [i; j; k]) with (do c <- gcd2 j k; gcd2 i c). rewrite gcd2_ok. cbn [bind]. apply gcd2_ok. Qed.
Lemma pair_coprime : forall i j k, Z.gcd i j = 1 -> coprime i j k.
Proof.
  intros i j k E. apply gcd3_coprime. rewrite Z.gcd_assoc, E. apply Z.gcd_1_l.
Qed.

(** Sets. *)
Lemma ipos_eqb_eq : forall t u, ipos_eqb t u = true <-> t = u.
Proof.
  intros [[a b] c] [[d e] f]. cbn. rewrite !andb_true_iff, !Z.eqb_eq. split; [intros [[-> ->] ->]; auto|]. intros E; injection E; auto.
Qed.
Lemma set_add_In : forall t s u, In u (set_add t s) <-> In u s \/ u = t.
Proof.
  intros t s u. unfold set_add. destruct (existsb (ipos_eqb t) s) eqn:E.
  - apply existsb_exists in E. destruct E as (x & I & Ex). apply ipos_eqb_eq in Ex. subst x. split; [auto|intros [H| ->]; auto].
  - rewrite in_app_iff. cbn. intuition.
Qed.
Lemma set_add_NoDup : forall t s, NoDup s -> NoDup (set_add t s).
Proof.
  intros t s N. unfold set_add. destruct (existsb (ipos_eqb t) s) eqn:E; auto.
  apply (Permutation_NoDup (l := t :: s)); [apply Permutation_cons_append|]. constructor; auto. intros I.
  assert (existsb (ipos_eqb t) s = true) by (apply existsb_exists; exists t; split; auto; apply ipos_eqb_eq; auto). congruence.
Qed.

Definition adds (f : list ipos -> result (list ipos)) (P : ipos -> Prop) : Prop :=
  forall s, NoDup s -> exists s', f s = Ok s' /\ NoDup s' /\ forall t, In t s' <-> In t s \/ P t.
Lemma adds_ext : forall f P Q, (forall t, P t <-> Q t) -> adds f P -> adds f Q.
Proof. intros f P Q E A s N. destruct (A s N) as (s' & F & N' & I). exists s'. repeat split; auto; intros H; apply I in H || apply I; rewrite ?E in *; intuition; apply E in H0; auto. Qed.
Lemma adds_fold : forall (g : result (list ipos) -> Z -> result (list ipos)) (P : Z -> ipos -> Prop) l,
  (forall x, In x l -> adds (fun s => g (Ok s) x) (P x)) -> adds (fun s => fold_left g l (Ok s)) (fun t => exists x, In x l /\ P x t).
Proof.
  intros g P l. induction l as [|x l IH]; intros H s N; cbn [fold_left].
  - exists s. split; auto. split; auto. intros t. split; [auto|]. intros [I|(x & [] & _)]; auto.
  - destruct (H x (or_introl eq_refl) s N) as (s' & -> & N' & I). destruct (IH (fun y Iy => H y (or_intror Iy)) s' N') as (s'' & -> & N'' & I'').
    exists s''. split; auto. split; auto. intros t. rewrite I'', I. split.
    + intros [[K|K]|(y & Iy & K)]; auto; right; [exists x; cbn; auto|exists y; cbn; auto].
    + intros [K|(y & [<-|Iy] & K)]; auto. right. exists y; auto.
Qed.

Lemma adds_pure : forall (h : list ipos -> Z -> list ipos) (P : Z -> ipos -> Prop) l,
  (forall x s t, In t (h s x) <-> In t s \/ P x t) -> (forall x s, NoDup s -> NoDup (h s x)) ->
  adds (fun s => Ok (fold_left h l s)) (fun t => exists x, In x l /\ P x t).
Proof.
  intros h P l Hi Hn. induction l as [|x l IH]; intros s N; cbn [fold_left].
  - exists s. split; auto. split; auto. intros t. split; [auto|]. intros [I|(x & [] & _)]; auto.
  - destruct (IH (h s x) (Hn x s N)) as (s' & E & N' & I). exists s'. split; auto. split; auto. intros t. rewrite I, Hi. split.
    + intros [[K|K]|(y & Iy & K)]; auto; right; [exists x; cbn; auto|exists y; cbn; auto].
    + intros [K|(y & [<-|Iy] & K)]; auto. right. exists y; auto.
Qed.

Lemma add_pair_adds : forall range i j, adds (add_pair range i j) (fun t => exists k, In k range /\ coprime i j k /\ t = sort3 i j k).
Proof.
  intros range i j s N. unfold add_pair. rewrite gcd_pair. cbn [bind]. destruct (Z.gcd i j =? 1) eqn:E.
  - apply Z.eqb_eq in E. revert s N. change (adds (fun s => Ok (fold_left (fun s k => set_add (sort3 i j k) s) range s)) (fun t => exists k, In k range /\ coprime i j k /\ t = sort3 i j k)).
    eapply adds_ext; [|apply (adds_pure (fun s k => set_add (sort3 i j k) s) (fun k t => t = sort3 i j k))].
    + intros t. split; [intros (k & I & ->); exists k; repeat split; auto; apply pair_coprime; auto|intros (k & I & _ & ->); eauto].
    + intros; apply set_add_In. + intros; apply set_add_NoDup; auto.
  - revert s N.
    match goal with |- forall s, _ -> exists s', ?f = _ /\ _ => change (adds (fun s => fold_left (fun s k => do s <- s; do g <- gcd [i; j; k]; Ok (if g =? 1 then set_add (sort3 i j k) s else s)) range (Ok s)) (fun t => exists k, In k range /\ coprime i j k /\ t = sort3 i j k)) end.
    apply (adds_fold _ (fun k t => coprime i j k /\ t = sort3 i j k)).
    intros k I s N. cbn [bind]. rewrite gcd_triple. cbn [bind]. destruct (Z.gcd i (Z.gcd j k) =? 1) eqn:F.
    + apply Z.eqb_eq in F. apply gcd3_coprime in F. eexists. split; [reflexivity|]. split; [apply set_add_NoDup; auto|].
      intros t. rewrite set_add_In. intuition.
    + apply Z.eqb_neq in F. eexists. split; [reflexivity|]. split; auto. intros t. split; [auto|]. intros [H|[H _]]; auto.
      apply gcd3_coprime in H. congruence.
Qed.

Lemma coprime_triples_ok : forall range, exists s, coprime_triples range = Ok s /\ NoDup s /\
  forall t, In t s <-> exists i j k, In i range /\ In j range /\ In k range /\ coprime i j k /\ t = sort3 i j k.
Proof.
  intros range. unfold coprime_triples.
  assert (A : adds (fun s => fold_left (fun s i => fold_left (fun s j => do s <- s; add_pair range i j s) range s) range (Ok s))
    (fun t => exists i, In i range /\ exists j, In j range /\ exists k, In k range /\ coprime i j k /\ t = sort3 i j k)).
  { apply (adds_fold _ (fun i t => exists j, In j range /\ exists k, In k range /\ coprime i j k /\ t = sort3 i j k)). intros i Ii.
    apply (adds_fold _ (fun j t => exists k, In k range /\ coprime i j k /\ t = sort3 i j k)). intros j Ij. cbn [bind]. apply add_pair_adds. }
  destruct (A [] (NoDup_nil _)) as (s & E & N & I). exists s. split; auto. split; auto. intros t. rewrite I. split.
  - intros [[]|(i & Ii & j & Ij & k & Ik & C & ->)]. exists i, j, k. auto.
  - intros (i & j & k & Ii & Ij & Ik & C & ->). right. exists i. split; auto. exists j. split; auto. exists k. auto.
Qed.

(** sort3 is a sort. *)
Lemma sort3_sorted : forall i j k, let '(a, b, c) := sort3 i j k in a <= b <= c /\ Permutation [i; j; k] [a; b; c].
Proof.
  intros i j k. unfold sort3. destruct (j <? i) eqn:A; [apply Z.ltb_lt in A|apply Z.ltb_ge in A].
  - destruct (k <? j) eqn:B; [apply Z.ltb_lt in B|apply Z.ltb_ge in B; destruct (k <? i) eqn:C; [apply Z.ltb_lt in C|apply Z.ltb_ge in C]]; (split; [lia|]).
    + etransitivity; [apply Permutation_rev|]. cbn. auto. + etransitivity; [apply perm_swap|]. apply perm_skip, perm_swap. + apply perm_swap.
  - destruct (k <? i) eqn:B; [apply Z.ltb_lt in B|apply Z.ltb_ge in B; destruct (k <? j) eqn:C; [apply Z.ltb_lt in C|apply Z.ltb_ge in C]]; (split; [lia|]).
    + etransitivity; [apply perm_skip, perm_swap|]. apply perm_swap. + apply perm_skip, perm_swap. + auto.
Qed.
Lemma permutations3_spec : forall a b c x y z, In (x, y, z) (permutations3 (a, b, c)) <-> Permutation [x; y; z] [a; b; c].
Proof.
  intros a b c x y z. split.
  - cbn. intros H. repeat (destruct H as [H|H]; [injection H as <- <- <-|]); [auto| | | | | |destruct H].
    + apply perm_skip, perm_swap. + apply perm_swap.
    + etransitivity; [apply perm_skip, perm_swap|]. apply perm_swap.
    + etransitivity; [apply perm_swap|]. apply perm_skip, perm_swap.
    + etransitivity; [apply (Permutation_rev [c; b; a])|]. cbn. auto.
  - intros H. assert (I : In x [a; b; c]) by (eapply Permutation_in; [exact H|left; auto]).
    assert (Q : forall p q, Permutation [y; z] [p; q] -> (y = p /\ z = q) \/ (y = q /\ z = p)).
    { intros p q P. assert (Iy : In y [p; q]) by (eapply Permutation_in; [exact P|left; auto]). destruct Iy as [<-|[<-|[]]].
      - apply Permutation_cons_inv in P. apply Permutation_length_1 in P. auto.
      - assert (P' : Permutation [q; z] [q; p]) by (etransitivity; [exact P|apply perm_swap]). apply Permutation_cons_inv in P'. apply Permutation_length_1 in P'. auto. }
    destruct I as [<-|[<-|[<-|[]]]].
    + apply Permutation_cons_inv in H. destruct (Q _ _ H) as [[-> ->]|[-> ->]]; cbn; auto 10.
    + assert (P' : Permutation [b; y; z] [b; a; c]) by (etransitivity; [exact H|apply perm_swap]). apply Permutation_cons_inv in P'.
      destruct (Q _ _ P') as [[-> ->]|[-> ->]]; cbn; auto 10.
    + assert (P' : Permutation [c; y; z] [c; a; b]).
      { etransitivity; [exact H|]. etransitivity; [apply perm_skip, perm_swap|]. apply perm_swap. }
      apply Permutation_cons_inv in P'. destruct (Q _ _ P') as [[-> ->]|[-> ->]]; cbn; auto 10.
Qed.

Lemma sorted3_unique : forall a b c a' b' c', a <= b <= c -> a' <= b' <= c' -> Permutation [a; b; c] [a'; b'; c'] -> (a, b, c) = (a', b', c').
Proof.
  intros a b c a' b' c' O O' P. apply permutations3_spec in P. cbn in P.
  assert (E : a = a' /\ b = b' /\ c = c') by (repeat (destruct P as [P|P]; [injection P; intros; lia|]); destruct P).
  destruct E as (-> & -> & ->). auto.
Qed.

(** Coordinates. *)
Lemma in_arange : forall lo hi x, In x (arange lo hi) <-> lo <= x < hi.
Proof.
  intros lo hi x. unfold arange. rewrite in_map_iff. split.
  - intros (k & <- & I). apply in_seq in I. lia.
  - intros H. exists (Z.to_nat (x - lo)). split; [lia|]. apply in_seq. lia.
Qed.

Definition trips (cop : list ipos) : list ipos := flat_map permutations3 cop.
Lemma in_trips : forall n cop enum, coprime_triples (arange (- n) (n + 1)) = Ok cop -> (forall l : list ipos, Permutation (enum l) l) ->
  forall x y z, In (x, y, z) (trips (enum cop)) <-> bounded n (x, y, z) /\ coprime x y z.
Proof.
  intros n cop enum E P x y z. destruct (coprime_triples_ok (arange (- n) (n + 1))) as (s & Es & _ & I). rewrite E in Es. injection Es as <-.
  unfold trips. rewrite in_flat_map. split.
  - intros (t & It & K). apply (Permutation_in _ (P cop)) in It. apply I in It. destruct It as (i & j & k & Ii & Ij & Ik & C & ->).
    pose proof (sort3_sorted i j k) as S. destruct (sort3 i j k) as [[a b] c]. destruct S as [_ S]. apply permutations3_spec in K.
    assert (Q : Permutation [x; y; z] [i; j; k]) by (etransitivity; [exact K|symmetry; auto]).
    rewrite in_arange in *.
    assert (R0 : forall w, In w [i; j; k] -> - n <= w <= n) by (intros w [<-|[<-|[<-|[]]]]; lia).
    split.
    + cbn [bounded]. split; [|split]; apply R0; apply (Permutation_in _ Q); cbn; auto.
    + intros d A B D. assert (W : forall w, In w [x; y; z] -> (d | w)) by (intros w [<-|[<-|[<-|[]]]]; auto).
      assert (Q' := Permutation_sym Q). apply C; apply W; apply (Permutation_in _ Q'); cbn; auto.
  - intros [(A & B & D) C]. exists (sort3 x y z). split.
    + apply (Permutation_in _ (Permutation_sym (P cop))). apply I. exists x, y, z. rewrite !in_arange. repeat split; auto; lia.
    + pose proof (sort3_sorted x y z) as S. destruct (sort3 x y z) as [[a b] c]. destruct S as [_ S]. apply permutations3_spec. auto.
Qed.

Lemma unimodular_coprime : forall a b c d e f g h i, unimodular (a, b, c) (d, e, f) (g, h, i) -> coprime a b c /\ coprime d e f /\ coprime g h i.
Proof.
  intros a b c d e f g h i U. unfold unimodular, zdet in U.
  assert (W : forall d x y z p q r, (d | x) -> (d | y) -> (d | z) -> x * p + y * q + z * r = 1 -> d = 1 \/ d = -1).
  { intros w x y z p q r X Y Z E. apply Z.divide_1_r. rewrite <- E. repeat apply Z.divide_add_r; apply Z.divide_mul_l; auto. }
  repeat split; intros w X Y Z.
  - apply (W w a b c (e * i - f * h) (f * g - d * i) (d * h - e * g)); auto; lia.
  - apply (W w d e f (c * h - b * i) (a * i - c * g) (b * g - a * h)); auto; lia.
  - apply (W w g h i (b * f - c * e) (c * d - a * f) (a * e - b * d)); auto; lia.
Qed.

(** Dictionaries. *)
Open Scope R_scope.
Lemma key_eqb_eq : forall k l, key_eqb k l = true <-> k = l.
Proof.
  intros [[a b] c] [[d e] f]. cbn. rewrite !andb_true_iff, !Reqb_true. split; [intros [[-> ->] ->]; auto|]. intros E; injection E; auto.
Qed.
Lemma key_eqb_sym : forall k l, key_eqb k l = key_eqb l k.
Proof. intros k l. destruct (key_eqb k l) eqn:E, (key_eqb l k) eqn:F; auto; apply key_eqb_eq in E || apply key_eqb_eq in F; subst; rewrite (proj2 (key_eqb_eq _ _) eq_refl) in *; discriminate. Qed.

Fixpoint dlookup (b : R * R * R) (d : dict) : option (list basis) :=
  match d with [] => None | (k, l) :: d => if key_eqb k b then Some l else dlookup b d end.
Definition cap (mc : option nat) (l : list basis) (u : basis) : list basis :=
  match mc with None => l ++ [u] | Some m => if Nat.ltb (length l) m then l ++ [u] else l end.
Lemma dict_add_lookup : forall mc b u d b', dlookup b' (dict_add mc b u d) =
  if key_eqb b b' then Some (match dlookup b d with None => [u] | Some l => cap mc l u end) else dlookup b' d.
Proof.
  intros mc b u d b'. induction d as [|[k l] d IH]; cbn [dict_add dlookup]; auto.
  destruct (key_eqb k b) eqn:E.
  - apply key_eqb_eq in E. subst k. cbn [dlookup]. destruct (key_eqb b b') eqn:F; auto.
  - cbn [dlookup]. destruct (key_eqb k b') eqn:F; auto. apply key_eqb_eq in F. subst k. rewrite key_eqb_sym, E. auto.
Qed.
Lemma dict_add_keys : forall mc b u d, NoDup (map fst d) -> NoDup (map fst (dict_add mc b u d)) /\
  forall k, In k (map fst (dict_add mc b u d)) <-> In k (map fst d) \/ k = b.
Proof.
  intros mc b u d. induction d as [|[k l] d IH]; cbn [dict_add map fst]; intros N.
  - split; [repeat constructor; auto|]. intros k. cbn. intuition.
  - inversion N as [|? ? NI N']; subst. destruct (key_eqb k b) eqn:E.
    + apply key_eqb_eq in E. subst k. cbn [map fst]. split; auto. intros k. cbn. intuition.
    + destruct (IH N') as [H1 H2]. cbn [map fst]. split.
      * constructor; auto. intros I. apply H2 in I. destruct I as [I| ->]; auto. rewrite (proj2 (key_eqb_eq b b) eq_refl) in E; discriminate.
      * intros k'. cbn. rewrite H2. intuition.
Qed.
Lemma dlookup_In : forall d b l, NoDup (map fst d) -> (In (b, l) d <-> dlookup b d = Some l).
Proof.
  induction d as [|[k l'] d IH]; intros b l N; cbn; [split; [intros []|discriminate]|]. inversion N as [|? ? NI N']; subst. split.
  - intros [E|I].
    + injection E as -> ->. rewrite (proj2 (key_eqb_eq b b) eq_refl). auto.
    + destruct (key_eqb k b) eqn:E; [|apply IH; auto]. apply key_eqb_eq in E. subst. exfalso. apply NI. apply in_map_iff. exists (b, l). auto.
  - destruct (key_eqb k b) eqn:E; [apply key_eqb_eq in E; subst; intros E; injection E as ->; auto|]. intros H. right. apply IH; auto.
Qed.

Section Group.
Variable mc : option nat.
Variable item : basis -> option (R * R * R).
Definition step (d : dict) (u : basis) : dict := match item u with Some b => dict_add mc b u d | None => d end.
Definition has (b : R * R * R) (u : basis) : bool := match item u with Some k => key_eqb k b | None => false end.
Definition cut (l : list basis) : list basis := match mc with None => l | Some m => firstn (Nat.max 1 m) l end.

Lemma cut_snoc : forall l u, l <> [] -> cut (l ++ [u]) = cap mc (cut l) u.
Proof.
  intros l u NE. unfold cut, cap. destruct mc as [m|]; auto.
  destruct (Nat.lt_ge_cases (length l) (Nat.max 1 m)) as [H|H].
  - assert (length l <> 0)%nat by (destruct l; [congruence|cbn; lia]). rewrite !firstn_all2 by (rewrite ?app_length; cbn [length]; lia).
    replace (Nat.ltb (length l) m) with true; auto. symmetry. apply Nat.ltb_lt. lia.
  - rewrite firstn_app. replace (Nat.max 1 m - length l)%nat with 0%nat by lia. cbn [firstn]. rewrite app_nil_r.
    replace (Nat.ltb (length (firstn (Nat.max 1 m) l)) m) with false; auto. symmetry. apply Nat.ltb_ge. rewrite firstn_length. lia.
Qed.

Lemma group_spec : forall L, let D := fold_left step L [] in NoDup (map fst D) /\
  forall b, dlookup b D = match filter (has b) L with [] => None | l => Some (cut l) end.
Proof.
  intros L. induction L as [|u L IH] using rev_ind; cbn zeta.
  - split; [constructor|]. reflexivity.
  - rewrite fold_left_app. cbn [fold_left]. cbn zeta in IH. destruct IH as [N IH]. set (D := fold_left step L []) in *.
    assert (F : forall b, filter (has b) (L ++ [u]) = filter (has b) L ++ if has b u then [u] else []).
    { intros b. rewrite filter_app. cbn. destruct (has b u); auto. }
    unfold step, has in *. destruct (item u) as [k|].
    + split; [apply dict_add_keys; auto|]. intros b. rewrite dict_add_lookup, F. destruct (key_eqb k b) eqn:E.
      * apply key_eqb_eq in E. subst k. rewrite IH. destruct (filter _ L) as [|v l] eqn:Q.
        -- cbn [app]. unfold cut. destruct mc as [[|m]|]; cbn [Nat.max firstn]; rewrite ?firstn_nil; reflexivity.
        -- rewrite <- cut_snoc by discriminate. reflexivity.
      * rewrite app_nil_r. apply IH.
    + split; auto. intros b. rewrite F, app_nil_r. apply IH.
Qed.
End Group.

Lemma in_cut : forall mc l u, In u (cut mc l) -> In u l.
Proof. intros [m|] l u I; auto. cbn in I. rewrite <- (firstn_skipn (Nat.max 1 m) l). apply in_app_iff. auto. Qed.

(** The size of a basis. *)
Lemma basis_size_ok : forall size (u1 u2 u3 : ipos), unimodular u1 u2 u3 -> positive size -> exists c s,
  cuboid_new (real u1) (real u2) (real u3) size = Ok c /\ basis_size size (u1, u2, u3) = Ok s /\ s = (vx (cu_size c), vy (cu_size c), vz (cu_size c)) /\
  vx (cu_size c) = rnorm (vmul (vec_of u1) size).
Proof.
  intros size u1 u2 u3 U P. destruct (cuboid_shape u1 u2 u3 size U P) as (c & e1 & e2 & e3 & E & G & _ & _ & _ & _ & S).
  pose proof (unimodular_det3 _ _ _ U) as D. rewrite det3_eq in D.
  destruct (orthogonalize_gs _ _ _ D) as (f1 & f2 & f3 & Ef & G'). destruct (gs_unique _ _ _ _ _ _ _ _ _ D G' G) as (-> & -> & ->).
  exists c. eexists. split; auto. unfold basis_size. change vec_of with real. rewrite Ef. cbn [bind]. split; [reflexivity|].
  assert (C : forall e, rnorm (vmul e size) = vnorm (vmul size e)) by (intros e; rewrite rnorm_eq; f_equal; unfold vmul; f_equal; ring).
  rewrite S, !C. cbn [vx vy vz]. split; auto. destruct G as (-> & _). auto.
Qed.

Lemma sort_desc_ok : forall t, decreasing (sort_desc t) /\ rearranged t (sort_desc t).
Proof.
  intros [[x y] z]. unfold sort_desc, Rltb.
  destruct (Rlt_dec y x); [destruct (Rlt_dec z y); [|destruct (Rlt_dec z x)]|destruct (Rlt_dec z x); [|destruct (Rlt_dec z y)]]; cbn; (split; [lra|auto 10]).
Qed.

Lemma in_srange_ok : forall r x, in_srange r x = true <-> in_range r x.
Proof.
  intros [lo [h|]] x; unfold in_srange, in_range; cbn; rewrite andb_true_iff, !Rleb_true; intuition.
Qed.
Lemma norm0 : forall x, 0 <= rnorm x. Proof. intros; rewrite rnorm_eq; apply vnorm_nonneg. Qed.
Lemma fill_fits : forall ranges r s1 s2 s3, fill_ranges ranges = Some r -> 0 <= s1 -> 0 <= s2 -> 0 <= s3 ->
  (in_range (range_at 0 r) s1 /\ in_range (range_at 1 r) s2 /\ in_range (range_at 2 r) s3 <-> fits ranges s1 s2 s3).
Proof.
  intros [[|r1 l]|] r s1 s2 s3 E P1 P2 P3; try discriminate. cbn [fill_ranges] in E. injection E as <-.
  assert (T : forall s, 0 <= s -> in_range (0, None) s) by (intros; split; cbn; auto).
  unfold range_at. cbn [fits]. split.
  - intros (A & B & C) i r s H K. destruct i as [|[|[|i]]]; cbn in K; try (injection K as <-).
    + cbn in H. injection H as <-. exact A.
    + destruct l as [|r2 l]; [discriminate|]. cbn in H. injection H as <-. exact B.
    + destruct l as [|r2 [|r3 l]]; try discriminate. cbn in H. injection H as <-. exact C.
    + destruct i; discriminate.
  - intros H. split; [apply (H 0%nat r1 s1); auto|]. split.
    + destruct l as [|r2 l]; cbn; auto. apply (H 1%nat r2 s2); auto.
    + destruct l as [|r2 [|r3 l]]; cbn; auto. apply (H 2%nat r3 s3); auto.
Qed.
Lemma fill_none : forall ranges s1 s2 s3, fill_ranges ranges = None -> fits ranges s1 s2 s3.
Proof. intros [[|r l]|] s1 s2 s3 E; cbn in *; auto; [|discriminate]. intros [|i] r s H; discriminate. Qed.

(** One basis of the loop. *)
Definition item (boxsize : vec) (ranges : option (list srange)) (sort : bool) (u : basis) : option (R * R * R) :=
  let '(u1, u2, u3) := u in
  if Req_EM_T (det3 (vec_of u1) (vec_of u2) (vec_of u3)) 1 then
    match basis_size boxsize u with
    | Ok (s1, s2, s3) =>
      if match ranges with None => true | Some r => in_srange (range_at 1 r) s2 && in_srange (range_at 2 r) s3 end
      then Some (if sort then sort_desc (s1, s2, s3) else (s1, s2, s3)) else None
    | Err _ => None
    end
  else None.
Lemma det_unimodular : forall (u1 u2 u3 : ipos), det3 (vec_of u1) (vec_of u2) (vec_of u3) = 1 <-> unimodular u1 u2 u3.
Proof.
  intros u1 u2 u3. change vec_of with real. rewrite det3_real. unfold unimodular. split; intros H; [apply (eq_IZR _ 1), H|rewrite H; auto].
Qed.
Lemma step_item : forall mc size ranges sort d u, positive size ->
  lattice_step mc size ranges sort d u = Ok (step mc (item size ranges sort) d u).
Proof.
  intros mc size ranges sort d [[u1 u2] u3] P. unfold lattice_step, step, item. destruct (Req_EM_T _ 1) as [D|D]; auto.
  apply det_unimodular in D. destruct (basis_size_ok size u1 u2 u3 D P) as (c & [[s1 s2] s3] & _ & -> & _ & _). cbn [bind].
  destruct (match ranges with None => true | Some r => _ end); auto.
Qed.
Lemma fold_step : forall mc size ranges sort L d, positive size ->
  fold_left (fun d u => do d <- d; lattice_step mc size ranges sort d u) L (Ok d) = Ok (fold_left (step mc (item size ranges sort)) L d).
Proof.
  intros mc size ranges sort L. induction L as [|u L IH]; intros d P; cbn [fold_left bind]; auto. rewrite step_item by auto. apply IH; auto.
Qed.

Definition bases_of (first triplets : list ipos) : list basis :=
  flat_map (fun x => flat_map (fun y => map (fun z => (x, y, z)) triplets) triplets) first.
Lemma in_bases : forall f t x y z, In (x, y, z) (bases_of f t) <-> In x f /\ In y t /\ In z t.
Proof.
  intros f t x y z. unfold bases_of. rewrite in_flat_map. split.
  - intros (x' & Ix & I). apply in_flat_map in I. destruct I as (y' & Iy & I). apply in_map_iff in I. destruct I as (z' & E & Iz).
    injection E as -> -> ->. auto.
  - intros (A & B & C). exists x. split; auto. apply in_flat_map. exists y. split; auto. apply in_map_iff. exists z. auto.
Qed.

(** What the search returns: for each size, the bases with that size in the order met, cut to maxcomb. *)
Definition sized (sort : bool) (c : cuboid) (box : R * R * R) : Prop :=
  if sort then decreasing box /\ rearranged (vx (cu_size c), vy (cu_size c), vz (cu_size c)) box else box = (vx (cu_size c), vy (cu_size c), vz (cu_size c)).

Definition first_of (ranges : option (list srange)) (size : vec) (triplets : list ipos) : list ipos :=
  match ranges with
  | None => triplets
  | Some r => filter (fun e => in_srange (range_at 0 r) (rnorm (vmul (vec_of e) size))) triplets
  end.
Lemma generate_eq : forall enum n mc size ranges sort cop, positive size -> coprime_triples (arange (- n) (n + 1)) = Ok cop ->
  generate_lattice_vectors enum n mc size ranges sort =
  Ok (fold_left (step mc (item size (fill_ranges ranges) sort)) (bases_of (first_of (fill_ranges ranges) size (trips (enum cop))) (trips (enum cop))) []).
Proof. intros. unfold generate_lattice_vectors. rewrite H0. cbn [bind]. apply fold_step; auto. Qed.

Lemma item_iff : forall n enum cop size ranges sort (u1 u2 u3 : ipos), positive size -> (forall l : list ipos, Permutation (enum l) l) ->
  coprime_triples (arange (- n) (n + 1)) = Ok cop ->
  let L := bases_of (first_of (fill_ranges ranges) size (trips (enum cop))) (trips (enum cop)) in
  (forall b, In (u1, u2, u3) L -> item size (fill_ranges ranges) sort (u1, u2, u3) = Some b ->
     bounded n u1 /\ bounded n u2 /\ bounded n u3 /\ unimodular u1 u2 u3 /\ exists c, cuboid_new (real u1) (real u2) (real u3) size = Ok c /\
       fits ranges (vx (cu_size c)) (vy (cu_size c)) (vz (cu_size c)) /\ sized sort c b) /\
  (forall c, bounded n u1 -> bounded n u2 -> bounded n u3 -> unimodular u1 u2 u3 -> cuboid_new (real u1) (real u2) (real u3) size = Ok c ->
     fits ranges (vx (cu_size c)) (vy (cu_size c)) (vz (cu_size c)) -> In (u1, u2, u3) L /\
     exists b, item size (fill_ranges ranges) sort (u1, u2, u3) = Some b /\ sized sort c b).
Proof.
  intros n enum cop size ranges sort u1 u2 u3 P En Ec L.
  assert (T : forall u, In u (trips (enum cop)) <-> bounded n u /\ let '(a, b, c) := u in coprime a b c) by (intros [[a b] c]; apply in_trips; auto).
  assert (K : forall s1 s2 s3 b, (if match fill_ranges ranges with None => true | Some r => in_srange (range_at 1 r) s2 && in_srange (range_at 2 r) s3 end
      then Some (if sort then sort_desc (s1, s2, s3) else (s1, s2, s3)) else None) = Some b ->
    forall c, (s1, s2, s3) = (vx (cu_size c), vy (cu_size c), vz (cu_size c)) -> sized sort c b).
  { intros s1 s2 s3 b H c Es. destruct (match fill_ranges ranges with None => true | Some r => _ end); [|discriminate]. injection H as <-.
    unfold sized. injection Es as -> -> ->. destruct sort; [apply (sort_desc_ok (vx (cu_size c), vy (cu_size c), vz (cu_size c)))|auto]. }
  split.
  - intros b I It. apply in_bases in I. destruct I as (I1 & I2 & I3).
    assert (I1' : In u1 (trips (enum cop))) by (unfold first_of in I1; destruct (fill_ranges ranges); auto; apply filter_In in I1; tauto).
    apply T in I1', I2, I3. unfold item in It. destruct (Req_EM_T _ 1) as [D|D]; [|discriminate]. apply det_unimodular in D.
    destruct (basis_size_ok size u1 u2 u3 D P) as (c & [[s1 s2] s3] & E & Es & Eq & E1). rewrite Es in It.
    split; [tauto|]. split; [tauto|]. split; [tauto|]. split; auto. exists c. split; auto. split; [|eapply K; eauto].
    destruct (fill_ranges ranges) as [r|] eqn:F; [|apply fill_none; auto]. injection Eq as -> -> ->.
    apply (fill_fits _ _ _ _ _ F).
    { rewrite E1; apply norm0. }
    1,2: unfold basis_size in Es; destruct (orthogonalize _ _ _) as [[[f1 f2] f3]|]; [|discriminate]; cbn [bind] in Es; injection Es as H1 H2 H3;
      rewrite <- ?H2, <- ?H3; apply norm0.
    destruct (in_srange (range_at 1 r) (vy (cu_size c))) eqn:A; [|discriminate]. destruct (in_srange (range_at 2 r) (vz (cu_size c))) eqn:B; [|discriminate].
    apply in_srange_ok in A, B. split; auto. unfold first_of in I1. apply filter_In in I1. destruct I1 as [_ I1]. apply in_srange_ok in I1. rewrite E1. auto.
  - intros c B1 B2 B3 U E F. destruct (basis_size_ok size u1 u2 u3 U P) as (c' & [[s1 s2] s3] & E' & Es & Eq & E1).
    rewrite E in E'. injection E' as <-. destruct u1 as [[a1 a2] a3], u2 as [[b1 b2] b3], u3 as [[c1 c2] c3].
    destruct (unimodular_coprime _ _ _ _ _ _ _ _ _ U) as (C1 & C2 & C3).
    assert (N2 : 0 <= vy (cu_size c) /\ 0 <= vz (cu_size c)).
    { injection Eq as -> -> ->. unfold basis_size in Es. destruct (orthogonalize _ _ _) as [[[f1 f2] f3]|]; [|discriminate]. cbn [bind] in Es. injection Es as H1 H2 H3.
      rewrite <- H2, <- H3. split; apply norm0. }
    assert (N1 : 0 <= vx (cu_size c)) by (rewrite E1; apply norm0).
    injection Eq as -> -> ->.
    assert (G : match fill_ranges ranges with None => True | Some r => in_range (range_at 0 r) (vx (cu_size c)) /\ in_range (range_at 1 r) (vy (cu_size c)) /\ in_range (range_at 2 r) (vz (cu_size c)) end).
    { destruct (fill_ranges ranges) as [r|] eqn:Q; auto. apply (fill_fits _ _ _ _ _ Q); tauto. }
    split.
    + apply in_bases. split; [|split; apply T; auto]. unfold first_of. destruct (fill_ranges ranges) as [r|]; [|apply T; auto].
      apply filter_In. split; [apply T; auto|]. apply in_srange_ok. rewrite <- E1. tauto.
    + unfold item. destruct (Req_EM_T _ 1) as [D|D]; [|exfalso; apply D; apply det_unimodular; auto]. rewrite Es.
      assert (H : match fill_ranges ranges with None => true | Some r => in_srange (range_at 1 r) (vy (cu_size c)) && in_srange (range_at 2 r) (vz (cu_size c)) end = true).
      { destruct (fill_ranges ranges) as [r|]; auto. rewrite (proj2 (in_srange_ok _ _) (proj1 (proj2 G))), (proj2 (in_srange_ok _ _) (proj2 (proj2 G))). auto. }
      eexists. split; [rewrite H; reflexivity|]. unfold sized. destruct sort; auto. apply sort_desc_ok.
Qed.

Lemma lattice_thm : forall enum n mc size ranges sort, (forall l : list ipos, Permutation (enum l) l) -> positive size ->
  exists d, generate_lattice_vectors enum n mc size ranges sort = Ok d /\ NoDup (map fst d) /\
  (forall box us, In (box, us) d -> us <> [] /\ (forall m, mc = Some m -> (length us <= Nat.max 1 m)%nat) /\
    forall u1 u2 u3 : ipos, In (u1, u2, u3) us -> bounded n u1 /\ bounded n u2 /\ bounded n u3 /\ unimodular u1 u2 u3 /\
      exists c, cuboid_new (real u1) (real u2) (real u3) size = Ok c /\ fits ranges (vx (cu_size c)) (vy (cu_size c)) (vz (cu_size c)) /\ sized sort c box) /\
  (forall (u1 u2 u3 : ipos) c, bounded n u1 -> bounded n u2 -> bounded n u3 -> unimodular u1 u2 u3 ->
    cuboid_new (real u1) (real u2) (real u3) size = Ok c -> fits ranges (vx (cu_size c)) (vy (cu_size c)) (vz (cu_size c)) ->
    exists box us, In (box, us) d /\ sized sort c box /\ (In (u1, u2, u3) us \/ exists m, mc = Some m /\ (m <= length us)%nat)).
Proof.
  intros enum n mc size ranges sort En P. destruct (coprime_triples_ok (arange (- n) (n + 1))) as (cop & Ec & _ & _).
  eexists. split; [apply (generate_eq enum n mc size ranges sort cop P Ec)|].
  set (L := bases_of _ _). set (it := item size (fill_ranges ranges) sort). destruct (group_spec mc it L) as [N G]. set (D := fold_left (step mc it) L []) in *.
  assert (HB : forall b u, In u (filter (has it b) L) <-> In u L /\ it u = Some b).
  { intros b u. rewrite filter_In. unfold has. destruct (it u) as [k|]; [rewrite key_eqb_eq|]; intuition congruence. }
  split; auto. split.
  - intros box us I. apply dlookup_In in I; auto. rewrite G in I. destruct (filter (has it box) L) as [|v l] eqn:Q; [discriminate|].
    injection I as <-. split; [unfold cut; destruct mc as [[|m]|]; cbn; discriminate|]. split.
    + intros m ->. cbn [cut]. rewrite firstn_length. lia.
    + intros u1 u2 u3 I. apply in_cut in I. rewrite <- Q in I. apply HB in I. destruct I as [IL It].
      eapply (proj1 (item_iff n enum cop size ranges sort u1 u2 u3 P En Ec)); eauto.
  - intros u1 u2 u3 c B1 B2 B3 U E F.
    destruct (proj2 (item_iff n enum cop size ranges sort u1 u2 u3 P En Ec) c B1 B2 B3 U E F) as (I & b & It & S).
    assert (Iu : In (u1, u2, u3) (filter (has it b) L)) by (apply HB; auto).
    specialize (G b). destruct (filter (has it b) L) as [|v l] eqn:Q; [destruct Iu|]. rewrite <- Q in *.
    exists b. eexists. split; [apply dlookup_In; eauto|]. split; auto.
    unfold cut. destruct mc as [m|]; auto. destruct (Nat.le_gt_cases (length (filter (has it b) L)) (Nat.max 1 m)) as [H|H].
    + left. rewrite firstn_all2; auto. + right. exists m. split; auto. rewrite firstn_length. lia.
Qed.

(** Repetitions. *)
Definition twice {A} (a : A) (l : list A) : Prop := exists l1 l2 l3, l = l1 ++ a :: l2 ++ a :: l3.
Lemma twice_NoDup : forall {A} (a : A) l, twice a l -> ~ NoDup l.
Proof. intros A a l (l1 & l2 & l3 & ->) N. apply NoDup_remove_2 in N. apply N. rewrite !in_app_iff. cbn. auto. Qed.
Lemma twice_in : forall {A B} (f : A -> list B) b x l, In x l -> twice b (f x) -> twice b (flat_map f l).
Proof.
  intros A B f b x l I (l1 & l2 & l3 & E). apply in_split in I. destruct I as (m1 & m2 & ->).
  exists (flat_map f m1 ++ l1), l2, (l3 ++ flat_map f m2). rewrite flat_map_app. cbn [flat_map]. rewrite E. repeat (rewrite <- ?app_assoc; cbn [app]). auto.
Qed.
Lemma twice_flat : forall {A B} (f : A -> list B) b x l, twice x l -> In b (f x) -> twice b (flat_map f l).
Proof.
  intros A B f b x l (l1 & l2 & l3 & ->) I. apply in_split in I. destruct I as (m1 & m2 & E).
  exists (flat_map f l1 ++ m1), (m2 ++ flat_map f l2 ++ m1), (m2 ++ flat_map f l3).
  rewrite flat_map_app. cbn [flat_map]. rewrite flat_map_app. cbn [flat_map]. rewrite E. repeat (rewrite <- ?app_assoc; cbn [app]). auto.
Qed.
Lemma twice_filter : forall {A} (f : A -> bool) a l, twice a l -> f a = true -> twice a (filter f l).
Proof.
  intros A f a l (l1 & l2 & l3 & ->) H. exists (filter f l1), (filter f l2), (filter f l3).
  rewrite filter_app. cbn [filter]. rewrite H, filter_app. cbn [filter]. rewrite H. auto.
Qed.

Definition axes : basis := ((1, 0, 0), (0, 1, 0), (0, 0, 1))%Z.
Lemma repeated : forall enum n, (forall l : list ipos, Permutation (enum l) l) -> (1 <= n)%Z ->
  exists d box us, generate_lattice_vectors enum n None (V 1 1 1) None false = Ok d /\ In (box, us) d /\ twice axes us.
Proof.
  intros enum n En N. assert (P : positive (V 1 1 1)) by (unfold positive; cbn; lra).
  destruct (coprime_triples_ok (arange (- n) (n + 1))) as (cop & Ec & _ & _).
  rewrite (generate_eq enum n None (V 1 1 1) None false cop P Ec). set (L := bases_of _ _). set (it := item (V 1 1 1) (fill_ranges None) false).
  destruct (group_spec None it L) as [ND G]. set (D := fold_left (step None it) L []) in *.
  assert (B : bounded n (1, 0, 0)%Z /\ bounded n (0, 1, 0)%Z /\ bounded n (0, 0, 1)%Z) by (unfold bounded; lia). destruct B as (B1 & B2 & B3).
  assert (U : unimodular (1, 0, 0)%Z (0, 1, 0)%Z (0, 0, 1)%Z) by reflexivity.
  destruct (basis_size_ok (V 1 1 1) (1, 0, 0)%Z (0, 1, 0)%Z (0, 0, 1)%Z U P) as (c & s & E & _ & _ & _).
  destruct (proj2 (item_iff n enum cop (V 1 1 1) None false (1, 0, 0)%Z (0, 1, 0)%Z (0, 0, 1)%Z P En Ec) c B1 B2 B3 U E I) as (IL & b & It & _).
  assert (TL : twice axes L).
  { apply (twice_flat _ _ (1, 0, 0)%Z).
    - cbn [first_of fill_ranges]. unfold trips. apply (twice_in _ _ (0, 0, 1)%Z).
      + destruct (coprime_triples_ok (arange (- n) (n + 1))) as (cop' & Ec' & _ & I). rewrite Ec in Ec'. injection Ec' as <-.
        apply (Permutation_in _ (Permutation_sym (En cop))). apply I. exists 0%Z, 0%Z, 1%Z. rewrite !in_arange. repeat split; try lia.
        intros d _ _ H. apply Z.divide_1_r in H. auto.
      + exists [(0, 0, 1); (0, 1, 0); (0, 0, 1); (0, 1, 0)]%Z, [], []. reflexivity.
    - apply in_bases in IL. destruct IL as (_ & I2 & I3). apply in_flat_map. eexists. split; [exact I2|]. apply in_map_iff. eexists. split; [reflexivity|exact I3]. }
  assert (TF : twice axes (filter (has it b) L)).
  { apply twice_filter; auto. unfold has. assert (It' : it axes = Some b) by exact It. rewrite It'. apply key_eqb_eq. auto. }
  specialize (G b). exists D, b, (filter (has it b) L). split; auto. split; auto. apply dlookup_In; auto. rewrite G.
  destruct (filter (has it b) L); auto. destruct TF as ([|? ?] & ? & ? & TF); discriminate.
Qed.
Lemma maxcomb_zero : forall enum n, (forall l : list ipos, Permutation (enum l) l) -> (1 <= n)%Z ->
  exists d box us, generate_lattice_vectors enum n (Some 0%nat) (V 1 1 1) None false = Ok d /\ In (box, us) d /\ us <> [].
Proof.
  intros enum n En N. assert (P : positive (V 1 1 1)) by (unfold positive; cbn; lra).
  destruct (lattice_thm enum n (Some 0%nat) (V 1 1 1) None false En P) as (d & E & _ & S & C).
  assert (B : bounded n (1, 0, 0)%Z /\ bounded n (0, 1, 0)%Z /\ bounded n (0, 0, 1)%Z) by (unfold bounded; lia). destruct B as (B1 & B2 & B3).
  assert (U : unimodular (1, 0, 0)%Z (0, 1, 0)%Z (0, 0, 1)%Z) by reflexivity.
  destruct (basis_size_ok (V 1 1 1) (1, 0, 0)%Z (0, 1, 0)%Z (0, 0, 1)%Z U P) as (c & s & Ec & _ & _ & _).
  destruct (C _ _ _ c B1 B2 B3 U Ec I) as (box & us & Ib & _). exists d, box, us. split; auto. split; auto. apply (S _ _ Ib).
Qed.
