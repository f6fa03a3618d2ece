(** C86, continued: the tiles and the directions of a group are those of all its rosettes. *)
Require Import Reals Lra Lia ZArith String List Bool.
From Verif Require Import Base Vec3 FA_Model SV3_Model SV3_Thm Script_Model Rosette_Model Rosette_Spec.
Import ListNotations.
Open Scope R_scope.

(** In a tile of one of the rosettes of a group. *)
Definition in_group (near : BinNums.Z * (R * R) -> R * R -> bool) (tiles : list (BinNums.Z * (R * R))) (table : list (BinNums.Z * list BinNums.Z)) (rosettes : list BinNums.Z) (p : R * R) : Prop :=
  exists t rosette l, In t tiles /\ In rosette rosettes /\ In (rosette, l) table /\ In (fst t) l /\ near t p = true.

Lemma zassoc_in : forall {A} r (table : list (BinNums.Z * A)) a, NoDup (map fst table) -> (zassoc r table = Some a <-> In (r, a) table).
Proof.
  intros A r table a N. induction table as [|[k v] table IH]; cbn; [split; [discriminate|tauto]|]. cbn in N. inversion N as [|? ? NI N']; subst. destruct (Z.eqb_spec k r) as [ ->|D].
  - split; [intro H; injection H as ->; auto|]. intros [H|H]; [injection H as ->; auto|]. destruct NI. apply (in_map fst) in H. auto.
  - rewrite (IH N'). split; auto. intros [H|H]; auto. congruence.
Qed.
Lemma zassoc_none : forall {A} r (table : list (BinNums.Z * A)), zassoc r table = None -> ~ In r (map fst table).
Proof. intros A r table. induction table as [|[k v] table IH]; cbn; auto. destruct (Z.eqb_spec k r) as [ ->|D]; [discriminate|]. intros H [E|E]; [congruence|]. apply (IH H E). Qed.

(** A group has tiles when all its rosettes are known, and its region is that of the tiles of all of them. *)
Theorem C86_tiles : forall table rosettes, NoDup (map fst table) ->
  ((exists ids, tiles_of table rosettes = Ok ids) <-> forall r, In r rosettes -> In r (map fst table)) /\
  forall ids, tiles_of table rosettes = Ok ids -> forall near tiles p, in_tile_of near tiles ids p <-> in_group near tiles table rosettes p.
Proof.
  intros table rosettes N.
  assert (G : forall ids, tiles_of table rosettes = Ok ids -> forall t, In t ids <-> exists r l, In r rosettes /\ In (r, l) table /\ In t l).
  { induction rosettes as [|r rosettes IH]; intros ids H t; cbn in H.
    - injection H as <-. split; [intros []|intros (r & l & [] & _)].
    - destruct (zassoc r table) as [l|] eqn:Z; [|discriminate]. destruct (tiles_of table rosettes) as [l'|] eqn:T; [|discriminate]. cbn in H. injection H as <-. rewrite in_app_iff, (IH l' eq_refl). apply (zassoc_in r table l N) in Z. split.
      + intros [H|(r' & m & A & B & C)]; [exists r, l; cbn; auto|exists r', m; cbn; auto].
      + intros (r' & m & [ <-|A] & B & C); [|right; eauto]. left. apply (zassoc_in _ _ _ N) in Z, B. congruence. }
  split.
  - clear G. induction rosettes as [|r rosettes IH]; cbn; [split; [intros _ r []|eauto]|]. destruct (zassoc r table) as [l|] eqn:Z.
    + apply (zassoc_in _ _ _ N) in Z. split.
      * intros [ids H]. destruct (tiles_of table rosettes) as [l'|] eqn:T; [|discriminate]. intros r' [ <-|I0]; [apply (in_map fst) in Z; auto|]. apply IH; eauto.
      * intro H. destruct (proj2 IH) as [l' T]; [intros; apply H; auto|]. rewrite T. cbn. eauto.
    + split; [intros [ids H]; discriminate|]. intro H. destruct (zassoc_none _ _ Z). apply H. auto.
  - intros ids H near tiles p. split.
    + intros (t & A & B & C). apply (G _ H) in B. destruct B as (r & l & B1 & B2 & B3). exists t, r, l. auto.
    + intros (t & r & l & A & B & C & D & F). exists t. repeat split; auto. apply (G _ H). eauto.
Qed.
Print Assumptions C86_tiles.

(** The direction of each rosette of a group is that of the table, in the order of the group. *)
Theorem C86_directions : forall table rosettes, NoDup (map fst table) ->
  forall dirs, directions_of table rosettes = Ok dirs <-> Forall2 (fun r d => In (r, d) table) rosettes dirs.
Proof.
  intros table rosettes N. induction rosettes as [|r rosettes IH]; intro dirs; cbn.
  - split; [intro H; injection H as <-; constructor|]. intro H. inversion H. auto.
  - destruct (zassoc r table) as [d|] eqn:Z.
    + pose proof Z as Z'. apply (zassoc_in _ _ _ N) in Z'. split.
      * intro H. destruct (directions_of table rosettes) as [l|] eqn:D; [|discriminate]. cbn in H. injection H as <-. constructor; auto. apply IH. auto.
      * intro H. inversion H as [|? d' ? l A B]; subst. apply (zassoc_in _ _ _ N) in A. apply IH in B. rewrite B. cbn. congruence.
    + split; [discriminate|]. intro H. inversion H as [|? d' ? l A B]; subst. destruct (zassoc_none _ _ Z). apply (in_map fst) in A. auto.
Qed.
Print Assumptions C86_directions.

Example C86_tiles_case : let table := [(0, [10; 11]); (1, [12]); (2, [13])]%Z in NoDup (map fst table) /\ tiles_of table [2; 0]%Z = Ok [13; 10; 11]%Z /\ tiles_of table [0; 7]%Z = Err KeyError /\
  in_group (fun t p => Rltb (fst p) 1) [(11%Z, (0, 0))] table [2; 0]%Z (0, 0) /\ directions_of sv3_table [1; 2]%Z = Ok [(1796/10, 0); (1831/10, 0)].
Proof.
  cbn zeta. split; [cbn; repeat constructor; cbn; intuition discriminate|]. split; [reflexivity|]. split; [reflexivity|]. split; [|].
  - exists (11%Z, (0, 0)), 0%Z, [10; 11]%Z. cbn. repeat split; auto. unfold Rltb. destruct (Rlt_dec 0 1); auto. lra.
  - cbn. reflexivity.
Qed.
