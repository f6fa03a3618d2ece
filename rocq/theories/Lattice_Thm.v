(** C24, C25: greatest common divisors, coprime triples and enumeration of lattice vectors. *)
Require Import Reals Lra Lia ZArith List Bool Permutation.
From Verif Require Import Base Vec3 Remap_Model Remap_Spec Lattice_Model Lattice_Spec Lattice_Proof.
Import ListNotations.
Open Scope Z_scope.

(** C24 *)
(** With two arguments or more, gcd returns their non-negative greatest common divisor. *)
Theorem C24_gcd : forall l, (2 <= length l)%nat -> exists g, gcd l = Ok g /\ is_gcd g l.
Proof. exact gcd_is_gcd. Qed.
Print Assumptions C24_gcd.
Example C24_case : (2 <= length [-12; 18; 0; 30]%Z)%nat /\ gcd [-12; 18; 0; 30] = Ok 6 /\ is_gcd 6 [-12; 18; 0; 30].
Proof.
  split; [cbn; lia|]. split; [reflexivity|]. destruct (C24_gcd [-12; 18; 0; 30]) as (g & E & G); [cbn; lia|].
  assert (F : gcd [-12; 18; 0; 30] = Ok 6) by reflexivity. rewrite F in E. injection E as <-. exact G.
Qed.
(** There is only one such number. *)
Theorem C24_gcd_unique : forall l g h, is_gcd g l -> is_gcd h l -> g = h.
Proof. exact is_gcd_unique. Qed.
Print Assumptions C24_gcd_unique.
(** A single argument is returned as it is, so the result may be negative; no argument is an error. *)
Theorem C24_single_refuted : (exists g, gcd [-4] = Ok g /\ ~ is_gcd g [-4]) /\ forall a, 0 <= a -> exists g, gcd [a] = Ok g /\ is_gcd g [a].
Proof.
  split.
  - exists (-4). split; [reflexivity|]. intros [H _]. lia.
  - intros a A. exists a. split; [reflexivity|]. split; auto. split; [intros x [<-|[]]; apply Z.divide_refl|]. intros d C. apply C. left; auto.
Qed.
Print Assumptions C24_single_refuted.
Theorem C24_no_argument : gcd [] = Err IndexError.
Proof. exact eq_refl. Qed.
Print Assumptions C24_no_argument.

(** coprime_triples lists, each once, the triples in increasing order that are made of three members of the range without
    common divisor. *)
Theorem C24_coprime_triples : forall range, exists s, coprime_triples range = Ok s /\ NoDup s /\
  forall a b c, In (a, b, c) s <->
    a <= b <= c /\ exists i j k, In i range /\ In j range /\ In k range /\ coprime i j k /\ Permutation [i; j; k] [a; b; c].
Proof.
  intros range. destruct (coprime_triples_ok range) as (s & E & N & H). exists s. split; [exact E|]. split; [exact N|]. intros a b c. rewrite H. split.
  - intros (i & j & k & Ii & Ij & Ik & C & T). pose proof (sort3_sorted i j k) as S. rewrite <- T in S. destruct S. split; auto. exists i, j, k. auto.
  - intros (O & i & j & k & Ii & Ij & Ik & C & P). exists i, j, k. repeat split; auto.
    pose proof (sort3_sorted i j k) as S. destruct (sort3 i j k) as [[a' b'] c']. destruct S as [O' P'].
    assert (Q : Permutation [a; b; c] [a'; b'; c']) by (etransitivity; [symmetry; exact P|exact P']).
    apply sorted3_unique; auto.
Qed.
Print Assumptions C24_coprime_triples.
Example C24_case_triples : exists s, coprime_triples [-1; 0; 1] = Ok s /\ length s = 9%nat /\ In (-1, 0, 0) s /\ ~ In (0, 0, 0) s.
Proof.
  exists (match coprime_triples [-1; 0; 1] with Ok s => s | Err _ => [] end). vm_compute. split; [auto|]. split; [auto|]. split; [auto 20|].
  intros H. repeat (destruct H as [H|H]; [discriminate|]). exact H.
Qed.

(** C25 *)
Open Scope R_scope.
(** Sizes of the remapped cuboid, in decreasing order if asked to. *)
Definition key_of (sort : bool) (c : cuboid) (box : R * R * R) : Prop :=
  let size := (vx (cu_size c), vy (cu_size c), vz (cu_size c)) in
  if sort then decreasing box /\ rearranged size box else box = size.

(** Whatever the order in which the set of triples is visited, the result has one entry per size; each entry is not empty,
    has at most maxcomb bases (one if maxcomb is 0), all unimodular, with coordinates up to maxint, a cuboid of the size
    of the entry, in the requested ranges; and no basis is missed, except those beyond maxcomb for the same size. *)
Theorem C25_enumeration : forall enum n mc size ranges sort, (forall l : list ipos, Permutation (enum l) l) -> positive size ->
  exists d, generate_lattice_vectors enum n mc size ranges sort = Ok d /\ NoDup (map fst d) /\
  (forall box us, In (box, us) d -> us <> [] /\ (forall m, mc = Some m -> (length us <= Nat.max 1 m)%nat) /\
    forall u1 u2 u3 : zvec, In (u1, u2, u3) us -> bounded n u1 /\ bounded n u2 /\ bounded n u3 /\ unimodular u1 u2 u3 /\
      exists c, cuboid_new (real u1) (real u2) (real u3) size = Ok c /\ fits ranges (vx (cu_size c)) (vy (cu_size c)) (vz (cu_size c)) /\ key_of sort c box) /\
  (forall (u1 u2 u3 : zvec) c, bounded n u1 -> bounded n u2 -> bounded n u3 -> unimodular u1 u2 u3 ->
    cuboid_new (real u1) (real u2) (real u3) size = Ok c -> fits ranges (vx (cu_size c)) (vy (cu_size c)) (vz (cu_size c)) ->
    exists box us, In (box, us) d /\ key_of sort c box /\ (In (u1, u2, u3) us \/ exists m, mc = Some m /\ (m <= length us)%nat)).
Proof. exact lattice_thm. Qed.
Print Assumptions C25_enumeration.
Example C25_case : (forall l : list ipos, Permutation (rev l) l) /\ positive (V 1 2 3) /\ bounded 2 (1, 1, 0)%Z /\ bounded 2 (0, 1, 0)%Z /\ bounded 2 (0, 0, 1)%Z /\
  unimodular (1, 1, 0)%Z (0, 1, 0)%Z (0, 0, 1)%Z /\ (forall s1 s2, fits (Some [(0, None); (0, None); (1 / 2, Some 4)]) s1 s2 3 <-> 0 <= s1 /\ 0 <= s2).
Proof.
  split; [intros l; symmetry; apply Permutation_rev|]. split; [unfold positive; cbn; lra|]. unfold bounded. repeat (split; [lia|]). split; [reflexivity|].
  intros s1 s2. cbn. split.
  - intros H. split; [apply (H 0%nat (0, None) s1)|apply (H 1%nat (0, None) s2)]; auto.
  - intros [A B] [|[|[|i]]] r s H K; cbn in *; try (injection H as <-; injection K as <-; unfold in_range; cbn; lra). destruct i; discriminate.
Qed.

(** maxcomb = 0 is not respected: one basis is stored per size. *)
Theorem C25_maxcomb_zero_refuted : forall enum n, (forall l : list ipos, Permutation (enum l) l) -> (1 <= n)%Z ->
  exists d box us, generate_lattice_vectors enum n (Some 0%nat) (V 1 1 1) None false = Ok d /\ In (box, us) d /\ us <> [].
Proof. exact maxcomb_zero. Qed.
Print Assumptions C25_maxcomb_zero_refuted.
(** Bases are repeated: the trivial basis is listed more than once (so that maxcomb counts repetitions). *)
Theorem C25_repeated_refuted : forall enum n, (forall l : list ipos, Permutation (enum l) l) -> (1 <= n)%Z ->
  exists d box us, generate_lattice_vectors enum n None (V 1 1 1) None false = Ok d /\ In (box, us) d /\
    exists l1 l2 l3, us = l1 ++ ((1, 0, 0), (0, 1, 0), (0, 0, 1))%Z :: l2 ++ ((1, 0, 0), (0, 1, 0), (0, 0, 1))%Z :: l3.
Proof. exact repeated. Qed.
Print Assumptions C25_repeated_refuted.
