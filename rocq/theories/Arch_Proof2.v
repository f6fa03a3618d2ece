(** Proofs for C90, continued: what a run writes. *)
Require Import Lia ZArith String Ascii List Bool Permutation.
From Verif Require Import Base Tile_Model Tile_Thm SV3_Model SV3_Thm Arch_Model Arch_Spec Arch_Proof.
Import ListNotations.
Open Scope string_scope.
Open Scope list_scope.

Section Runs.
Context {T : Type}.
Lemma in_apply : forall (w : list (string * file T)) d x, NoDup (map fst w) -> NoDup (map fst d) -> (In x (apply_writes w d) <-> In x w \/ (In x d /\ ~ In (fst x) (map fst w))).
Proof.
  intros w d [m f] Nw Nd. pose proof (nodup_apply w d Nd) as N. cbn [fst]. split.
  - intro H. apply (get_in _ _ _ N) in H. destruct (in_dec string_dec m (map fst w)) as [I0|NI].
    + apply in_map_iff in I0. destruct I0 as ([m' g] & E & I0). cbn in E. subst m'. rewrite (get_apply_new w d m g) in H by auto. injection H as ->. auto.
    + rewrite get_apply_old in H by auto. apply in_get in H. auto.
  - intros [H|[H NI]]; apply in_get; [apply get_apply_new; auto|]. rewrite get_apply_old by auto. apply get_in; auto.
Qed.
Lemma nodup_app_names : forall (l l' : list (string * file T)), NoDup (map fst l) -> NoDup (map fst l') -> (forall n, In n (map fst l) -> ~ In n (map fst l')) -> NoDup (map fst (l ++ l')).
Proof. intros l l' A B D. rewrite map_app. induction (map fst l) as [|a m IH]; auto. cbn. inversion A as [|? ? NI A']; subst. constructor; [|apply IH; auto; intros; apply D; right; auto]. rewrite in_app_iff. intros [H|H]; [auto|]. apply (D a); [left; auto|auto]. Qed.
Lemma nodup_sub : forall (P : string -> bool) (w : list (string * file T)), NoDup (map fst w) -> NoDup (map fst (filter (fun x => P (fst x)) w)).
Proof.
  intros P w N. induction w as [|x d IH]; cbn; [constructor|]. cbn in N. inversion N as [|? ? NI N']; subst. destruct (P (fst x)); auto. cbn. constructor; auto. intro I0. apply NI. apply in_map_iff in I0. destruct I0 as (y & E & I0). apply filter_In in I0. rewrite <- E. apply in_map. tauto.
Qed.
(** Files written and files left. *)
Lemma holds_apply : forall (P : string -> Prop) w (d : directory T) x y, NoDup (map fst w) -> NoDup (map fst d) -> holds P w x -> holds (fun n => P n /\ ~ In n (map fst w)) d y -> holds P (apply_writes w d) (x ++ y).
Proof.
  intros P w d x y Nw Nd (l & N1 & I1 & P1) (l' & N2 & I2 & P2). exists (l ++ l'). split; [|split].
  - apply nodup_app_names; auto. intros n A B. apply in_map_iff in A, B. destruct A as (a & <- & A), B as (b & E & B). apply I1 in A. apply I2 in B. destruct B as (_ & _ & B). rewrite E in B. apply B. apply in_map. tauto.
  - intro z. rewrite in_app_iff, I1, I2, in_apply by auto. tauto.
  - rewrite flat_map_app. apply Permutation_app; auto.
Qed.
(** What a turn writes. *)
Definition saved (share : nat -> list T -> list (list T)) (n : nat) (base : string) (t : list T) : list (string * file T) := combine (map (piece base) (seq 0 n)) (map Fits (share n t)) ++ [(base, Big t)].
Lemma save_ok : forall listing share n base (dir : directory T), survey base dir -> lists listing -> exists t, holds (named "fits") dir t /\ save_directory listing share n dir = (saved share n base t, Ok tt).
Proof.
  intros listing share n base dir (NE & NH & NF & ND & (x0 & X0 & NX) & SV) LS. set (p := fun n => (visible n && ends_with "fits" n)%bool). set (fns := listing (filter p (map fst dir))).
  assert (PM : Permutation fns (filter p (map fst dir))) by apply LS.
  assert (G : forall m, In m fns -> (exists l, get_file m dir = Some (Fits l)) /\ base_of m = base).
  { intros m M. apply (Permutation_in _ PM) in M. apply filter_In in M. destruct M as [M Q]. apply named_spec in Q. apply in_map_iff in M. destruct M as ([m' f] & E & M). cbn in E. subst m'. destruct (SV _ M Q) as ((l & L) & a & b & A & B & E). cbn in L, E. subst f. split; [exists l; apply get_in; auto|]. rewrite E. apply base_of_spec; auto. }
  exists (flat_map (value dir) fns). split.
  - destruct (holds_names (named "fits") p dir (named_spec "fits") ND) as (l & A & B & C). exists l. repeat split; auto; try apply B; auto. rewrite <- C. apply flat_perm. auto.
  - unfold save_directory. fold p. fold fns. destruct fns as [|first rest] eqn:F.
    + exfalso. apply Permutation_nil in PM. apply (in_map fst) in X0. assert (I0 : In (fst x0) (filter p (map fst dir))) by (apply filter_In; split; auto; apply named_spec; auto). rewrite PM in I0. destruct I0.
    + rewrite (read_ok true dir (first :: rest)) by (intros m M; apply (G m M)). rewrite (proj2 (G first (or_introl eq_refl))). reflexivity.
Qed.
Lemma combine_names : forall {A B} (l : list A) (m : list B), List.length l = List.length m -> map fst (combine l m) = l.
Proof. induction l as [|a l IH]; intros [|b m] H; cbn in *; try discriminate; auto. f_equal. apply IH. lia. Qed.
Lemma combine_rows : forall (l : list string) (m : list (list T)), List.length l = List.length m -> flat_map (fun x => rows (snd x)) (combine l (map Fits m)) = concat m.
Proof. induction l as [|a l IH]; intros [|b m] H; cbn in *; try discriminate; auto. f_equal. apply IH. lia. Qed.
Lemma saved_names : forall share n base t, shares share -> (1 <= n)%nat -> map fst (saved share n base t) = map (piece base) (seq 0 n) ++ [base].
Proof. intros share n base t SH N. unfold saved. rewrite map_app, combine_names by (rewrite !map_length, seq_length; symmetry; apply SH; auto). auto. Qed.
Lemma saved_nodup : forall share n base t, shares share -> (1 <= n)%nat -> (forall p, base <> (p ++ ".fits")%string) -> NoDup (map fst (saved share n base t)).
Proof.
  intros share n base t SH N NF. rewrite saved_names by auto. assert (D : NoDup (map (piece base) (seq 0 n))). { apply FinFun.Injective_map_NoDup; [|apply seq_NoDup]. intros i j E. apply piece_inj in E. tauto. }
  eapply Permutation_NoDup; [apply Permutation_app_comm|]. cbn. constructor; auto. intro I0. apply in_map_iff in I0. destruct I0 as (i & E & _). apply (piece_not_base base base i NF E).
Qed.
Lemma saved_fits : forall share n base t, shares share -> (1 <= n)%nat -> (forall s, base <> String "." s) -> (forall p, base <> (p ++ ".fits")%string) -> holds (named ".fits") (saved share n base t) t.
Proof.
  intros share n base t SH N NH NF. destruct (SH n t N) as [L C]. assert (LE : List.length (map (piece base) (seq 0 n)) = List.length (map (@Fits T) (share n t))) by (rewrite !map_length, seq_length; auto).
  exists (combine (map (piece base) (seq 0 n)) (map Fits (share n t))). split; [|split].
  - rewrite combine_names by auto. apply FinFun.Injective_map_NoDup; [|apply seq_NoDup]. intros i j E. apply piece_inj in E. tauto.
  - intros [m f]. unfold saved. rewrite in_app_iff. cbn [In fst]. split.
    + intro I0. split; auto. apply in_combine_l in I0. apply in_map_iff in I0. destruct I0 as (i & <- & _). apply piece_named. auto.
    + intros [[I0|[E|[] ] ] (_ & p & Q)]; auto. injection E as <- <-. destruct (NF p Q).
  - rewrite combine_rows by (rewrite map_length, seq_length; auto). rewrite C. auto.
Qed.
Lemma saved_big : forall share n base t (P : string -> Prop), P base -> (forall i, ~ P (piece base i)) -> holds P (saved share n base t) t.
Proof.
  intros share n base t P PB NP. exists [(base, Big t)]. split; [repeat constructor; cbn; auto|]. split; [|cbn; rewrite app_nil_r; auto].
  intros [m f]. unfold saved. rewrite in_app_iff. cbn [In fst]. split.
  - intros [E|[] ]. injection E as <- <-. auto.
  - intros [[I0|H] Q]; auto. apply in_combine_l in I0. apply in_map_iff in I0. destruct I0 as (i & <- & _). destruct (NP i Q).
Qed.
Lemma saved_type : forall share n base t x, In x (saved share n base t) -> (forall p, base <> (p ++ ".fits")%string) -> (named ".fits" (fst x) -> exists l, snd x = Fits l) /\ (dotless (fst x) -> exists l, snd x = Big l).
Proof.
  intros share n base t [m f] I0 NF. unfold saved in I0. apply in_app_iff in I0. cbn [fst snd]. destruct I0 as [I0|[E|[] ] ].
  - split; [intros _; apply in_combine_r in I0; apply in_map_iff in I0; destruct I0 as (l & <- & _); eauto|]. apply in_combine_l in I0. apply in_map_iff in I0. destruct I0 as (i & <- & _). intro D. destruct D. unfold piece. rewrite !list_app. rewrite !in_app_iff. right; right; right. left. auto.
  - injection E as <- <-. split; eauto. intros (_ & p & Q). destruct (NF p Q).
Qed.
Lemma holds_app : forall (P : string -> Prop) (w w' : list (string * file T)) x y, NoDup (map fst (w ++ w')) -> holds P w x -> holds P w' y -> holds P (w ++ w') (x ++ y).
Proof.
  intros P w w' x y N (l & N1 & I1 & P1) (l' & N2 & I2 & P2). exists (l ++ l'). split; [|split].
  - apply nodup_app_names; auto. intros n A B. apply in_map_iff in A, B. destruct A as (a & <- & A), B as (b & E & B). apply I1 in A. apply I2 in B. destruct A as [A _], B as [B _]. rewrite map_app in N. apply (in_map fst) in A, B. rewrite E in B.
    clear - N A B. revert A B. generalize (fst a). intros q A B. induction (map fst w) as [|k m IH]; [destruct A|]. cbn in N. inversion N as [|? ? NI N']; subst. destruct A as [ ->|A]; [|auto]. apply NI. apply in_app_iff. auto.
  - intro z. rewrite !in_app_iff, I1, I2. tauto.
  - rewrite flat_map_app. apply Permutation_app; auto.
Qed.
(** A run on the two catalogs. *)
Definition written (share : nat -> list T -> list (list T)) (n : nat) (b1 b2 : string) (t1 : list T) (t2 : option (list T)) : list (string * file T) := saved share n b1 t1 ++ match t2 with None => [] | Some t => saved share n b2 t end.
Lemma run_ok : forall listing share n b1 b2 (sky : directory T) skysupp, catalogs b1 b2 sky skysupp -> lists listing ->
  exists t1 t2, write_all_skytargets true listing share sky skysupp n = (written share n b1 b2 t1 t2, Ok tt) /\ survey_rows sky skysupp (t1 ++ match t2 with None => [] | Some t => t end) /\ (t2 = None <-> skysupp = None).
Proof.
  intros listing share n b1 b2 sky skysupp [S1 S2] LS. destruct (save_ok listing share n b1 sky S1 LS) as (t1 & H1 & W1). unfold write_all_skytargets. rewrite W1. destruct skysupp as [dir|].
  - destruct S2 as [S2 _]. destruct (save_ok listing share n b2 dir S2 LS) as (t2 & H2 & W2). rewrite W2. exists t1, (Some t2). split; [reflexivity|]. split; [exists t1, t2; auto|]. split; discriminate.
  - exists t1, None. split; [unfold written; rewrite app_nil_r; auto|]. split; [exists t1, []; auto|tauto].
Qed.
Lemma written_nodup : forall share n b1 b2 t1 t2, shares share -> (1 <= n)%nat -> (forall p, b1 <> (p ++ ".fits")%string) -> (t2 <> None -> (forall p, b2 <> (p ++ ".fits")%string) /\ b1 <> b2) -> NoDup (map fst (written share n b1 b2 t1 t2)).
Proof.
  intros share n b1 b2 t1 t2 SH N F1 F2. unfold written. destruct t2 as [t2|]; [|rewrite app_nil_r; apply saved_nodup; auto]. destruct F2 as [F2 D]; [discriminate|].
  apply nodup_app_names; try apply saved_nodup; auto. intros m A B. rewrite saved_names in A, B by auto. apply in_app_iff in A, B. destruct A as [A|[ <-|[] ] ], B as [B|[B|[] ] ].
  - apply in_map_iff in A, B. destruct A as (i & <- & _), B as (j & E & _). apply piece_inj in E. destruct E. auto.
  - subst m. apply in_map_iff in A. destruct A as (i & E & _). apply (piece_not_base b2 b1 i F2 E).
  - apply in_map_iff in B. destruct B as (i & E & _). apply (piece_not_base b1 b2 i F1 E).
  - auto.
Qed.
End Runs.
