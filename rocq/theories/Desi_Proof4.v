(** Proofs for the DESI cut-sky script: files. *)
Require Import Reals Lra Lia ZArith String Ascii List Sorted Bool.
From Verif Require Import Base Vec3 Isometry_Model Sky_Model Cutsky_Model Cutsky_Spec Box_Model Box_Spec Box_Proof Box_Proof2 Mask_Spec Mask_Model Sample_Model Random_Model Random_Spec Spline_Model Spline_Spec FA_Model Foot_Model Region_Model Script_Model Script_Thm SV3_Model Rosette_Model Rosette_Spec Arch_Proof Desi_Model Desi_Spec Desi_Proof Desi_Proof2 Desi_Proof3.
Import ListNotations.
Open Scope R_scope.

(* ---------- rows shared between files ---------- *)
Lemma pick_seq : forall {A} (l pre : list A), pick (seq (List.length pre) (List.length l)) (pre ++ l) = l.
Proof.
  intros A. unfold pick. induction l as [|a l IH]; intros pre; auto.
  cbn [List.length seq flat_map]. rewrite nth_error_app2, Nat.sub_diag by lia. cbn [nth_error List.app]. f_equal. specialize (IH (pre ++ [a])%list). rewrite app_length in IH. cbn [List.length] in IH. rewrite Nat.add_1_r in IH.
  rewrite <- app_assoc in IH. exact IH.
Qed.
Lemma pick_all : forall {A} (l : list A), pick (seq 0 (List.length l)) l = l.
Proof. intros A l. exact (pick_seq l []). Qed.
Lemma rows_concat : forall {A} (l : list A) sh, flat_map (fun idx => rows_at idx l) sh = rows_at (List.concat sh) l.
Proof. intros A l. induction sh as [|idx sh IH]; auto. cbn [flat_map List.concat]. rewrite IH. unfold rows_at. rewrite flat_map_app. reflexivity. Qed.
Lemma lookup_map : forall f name d, lookup name (map (fun x : string * col => (fst x, f (snd x))) d) = option_map f (lookup name d).
Proof. intros f name. induction d as [|[n x] d IH]; auto. cbn [map fst snd lookup]. destruct (String.eqb name n); auto. Qed.
Definition full_table (t : table) : Prop := forall name x, lookup name (t_data t) = Some x -> col_rows x = List.length (t_hpx t).
Lemma shared_ok : forall share k t, (1 <= k)%nat -> shares share -> full_table t -> shared_out (map (take_rows t) (share k (List.length (t_hpx t)))) t.
Proof.
  intros share k t K Sh F. destruct (Sh k (List.length (t_hpx t)) K) as [_ C]. set (sh := share k _) in *.
  assert (Fm : forall {B} (g : table -> list B), flat_map g (map (take_rows t) sh) = flat_map (fun idx => g (take_rows t idx)) sh) by (intros B g; clear; induction sh; auto; cbn; congruence).
  assert (Lk : forall name idx, lookup name (t_data (take_rows t idx)) = option_map (fun x => match x with ColS l => ColS (rows_at idx l) | ColV l => ColV (rows_at idx l) end) (lookup name (t_data t))) by (intros name idx; exact (lookup_map (fun x => match x with ColS l => ColS (rows_at idx l) | ColV l => ColV (rows_at idx l) end) name (t_data t))).
  assert (All : forall {A} (l : list A), List.length l = List.length (t_hpx t) -> rows_at (List.concat sh) l = l) by (intros A l L; rewrite C, <- L; apply pick_all).
  split; [|split; [|split] ].
  - intros name l E. rewrite Fm. transitivity (rows_at (List.concat sh) l); [|apply All; exact (F _ _ E)]. rewrite <- rows_concat. apply flat_map_ext. intros idx. unfold nums. rewrite Lk, E. reflexivity.
  - intros name l E. rewrite Fm. transitivity (rows_at (List.concat sh) l); [|apply All; exact (F _ _ E)]. rewrite <- rows_concat. apply flat_map_ext. intros idx. unfold vecs. rewrite Lk, E. reflexivity.
  - rewrite Fm. change (flat_map (fun idx => rows_at idx (t_hpx t)) sh = t_hpx t). rewrite rows_concat. apply All. reflexivity.
  - intros t' I. apply in_map_iff in I. destruct I as (idx & <- & _). unfold take_rows. cbn [t_data]. rewrite map_map. reflexivity.
Qed.
Lemma shared_one : forall t, shared_out [t] t.
Proof.
  intros t. unfold shared_out. cbn [flat_map]. rewrite app_nil_r. split; [|split; [|split; [reflexivity|intros t' [<-|[] ]; reflexivity] ] ].
  - intros name l E. rewrite app_nil_r. unfold nums. rewrite E. reflexivity.
  - intros name l E. rewrite app_nil_r. unfold vecs. rewrite E. reflexivity.
Qed.
Lemma randoms_full : forall inside i box region ra dec seed many t, randoms_of inside i box region ra dec seed many t -> full_table t.
Proof.
  intros inside i box region ra dec seed many t (a & e & drawn & kept & z & _ & _ & _ & _ & Lz & _ & D & Hx) name x H. rewrite D in H. rewrite Hx, map_length. cbn [lookup] in H.
  repeat (destruct (String.eqb name _); [injection H as <-; cbn; rewrite ?map_length; auto|]). discriminate.
Qed.

(* ---------- names ---------- *)
Lemma data_name_ok : forall i region, data_name i region = data_file i region.
Proof.
  intros i region. unfold data_name, data_file, is_bigfile, tag. change (programpasses i) with (program_name i). destruct (String.eqb (i_fmt i) "bigfile"); rewrite ?app_assoc_s; reflexivity.
Qed.
Lemma random_names_ok : forall i region, String.eqb (i_fmt i) "bigfile" = false -> map (randoms_name i region) (seq 0 nrand_over_data) = random_files i region.
Proof.
  intros i region E. unfold random_files. rewrite E. unfold randoms_name, tag. change (programpasses i) with (program_name i). cbn [nrand_over_data seq map].
  change (str (Z.of_nat 0)) with "0"%string. change (str (Z.of_nat 1)) with "1"%string. change (str (Z.of_nat 2)) with "2"%string. change (str (Z.of_nat 3)) with "3"%string. change (str (Z.of_nat 4)) with "4"%string.
  change (str (Z.of_nat 5)) with "5"%string. change (str (Z.of_nat 6)) with "6"%string. change (str (Z.of_nat 7)) with "7"%string. change (str (Z.of_nat 8)) with "8"%string. change (str (Z.of_nat 9)) with "9"%string.
  rewrite !app_assoc_s. reflexivity.
Qed.
Lemma map_combine : forall {A B} (a : list A) (b : list B), List.length a = List.length b -> map fst (combine a b) = a /\ map snd (combine a b) = b.
Proof. intros A B. induction a as [|x a IH]; intros [|y b] L; try discriminate; auto. injection L as L. destruct (IH b L) as [H1 H2]. cbn. rewrite H1, H2. auto. Qed.
Lemma write_ok : forall inside i box region ra dec seed many t fs r, shares (i_share i) -> randoms_of inside i box region ra dec seed many t -> write_randoms i region t = (fs, r) ->
  r = Ok tt /\ map fst fs = random_files i region /\ shared_out (map snd fs) t.
Proof.
  intros inside i box region ra dec seed many t fs r Sh D H. unfold write_randoms in H. unfold is_bigfile in H. destruct (String.eqb (i_fmt i) "bigfile") eqn:E.
  - injection H as <- <-. split; auto. unfold random_files. rewrite E. cbn [map fst snd]. split; [|apply shared_one]. unfold tag. change (programpasses i) with (program_name i). rewrite ?app_assoc_s. reflexivity.
  - injection H as <- <-. split; auto. rewrite <- (random_names_ok i region E). destruct (map_combine (map (randoms_name i region) (seq 0 nrand_over_data)) (map (take_rows t) (i_share i nrand_over_data (List.length (t_hpx t))))) as [H1 H2].
    { rewrite !map_length, seq_length. symmetry. apply Sh. unfold nrand_over_data. lia. }
    split; [exact H1|]. match goal with |- shared_out ?a _ => replace a with (map (take_rows t) (i_share i nrand_over_data (List.length (t_hpx t)))) by (symmetry; exact H2) end. apply shared_ok; auto; [unfold nrand_over_data; lia|]. eapply randoms_full; eauto.
Qed.

(* ---------- the loop ---------- *)
Lemma last_index_none : forall region l, last_index region l = None <-> ~ In region l.
Proof.
  intros region. induction l as [|r l IH]; cbn [last_index]; [split; auto|]. destruct (last_index region l) as [k|].
  - split; [discriminate|]. intros H. exfalso. destruct IH as [_ IH]. assert (X : ~ In region l) by (intros I; apply H; right; auto). discriminate (IH X).
  - destruct (String.eqb_spec region r) as [->|N]; [split; [discriminate|intros H; exfalso; apply H; left; auto]|]. split; auto. intros _ [E|I]; [congruence|]. apply IH in I; auto.
Qed.
Lemma last_index_ok : forall pre region post, ~ In region post -> last_index region (pre ++ region :: post) = Some (Z.of_nat (List.length pre)).
Proof.
  induction pre as [|r pre IH]; intros region post N; cbn [List.app last_index].
  - apply last_index_none in N. rewrite N, String.eqb_refl. reflexivity.
  - rewrite IH by auto. f_equal. cbn [List.length]. lia.
Qed.
Lemma io_step : forall {A B} (r : result A) (k : A -> io B) fs b, io_bind (io_ret r) k = (fs, b) -> (exists a, r = Ok a /\ k a = (fs, b)) \/ (exists e, r = Err e /\ fs = [] /\ b = Err e).
Proof.
  intros A B [a|e] k fs b H; unfold io_bind, io_ret in H; [left; exists a; destruct (k a) as [l r]; cbn in H; injection H as <- <-; auto|right; injection H as <- <-; eauto].
Qed.
Lemma region_ok : forall inside i regions box n region k fs r, ready i box n -> sky_area (i_desi i) inside -> (forall s z, List.length (i_smear i s z) = List.length z) -> splines (i_make i) -> splits (i_split i) -> shares (i_share i) ->
  last_index region regions = Some k -> region_step call_meant i regions box region = (fs, r) ->
  (exists e, r = Err e /\ (fs = [] \/ region_left inside i box k region false fs)) \/ r = Ok tt /\ region_left inside i box k region true fs.
Proof.
  intros inside i regions box n region k fs r Rd A Sm Sp Sl Sh L H. unfold region_step in H.
  apply io_step in H. destruct H as [ ([ra dec] & Ec & H)|(e & _ & -> & ->)]; [|left; eauto].
  apply io_step in H. destruct H as [ (cutsky & Eu & H)|(e & _ & -> & ->)]; [|left; eauto].
  unfold seed_of in Eu. rewrite L in Eu. cbn [bind] in Eu.
  apply io_step in H. destruct H as [ ([c' px] & Ef & H)|(e & _ & -> & ->)]; [|left; eauto]. cbn [fst snd] in H.
  pose proof (data_ok inside i box n region ra dec _ cutsky c' px Rd A Sm Eu Ef) as D. set (t := Table (data_columns (pc_data c')) px) in *. rewrite data_name_ok in H. unfold io_bind at 1 in H.
  destruct (i_generate i) eqn:G.
  - destruct (io_bind _ _) as [l' r'] eqn:E in H. injection H as <- <-. apply io_step in E. destruct E as [ (ts & Er & E)|(e & _ & -> & ->)].
    + unfold seed_of in Er. rewrite L in Er. cbn [bind] in Er. pose proof (randoms_ok inside i box n region ra dec _ _ ts Rd A Sp Sl Er) as Rn.
      destruct (write_ok inside i box region ra dec _ _ _ _ _ Sh Rn E) as (-> & Nm & So). right. split; auto. exists ra, dec, (csize cutsky), t, (map snd l'). split; [exact Ec|]. split; [exact D|]. split; [reflexivity|].
      split; [cbn [List.app map fst]; rewrite Nm; unfold region_files; rewrite G; reflexivity|]. rewrite G. cbn [andb]. exists (gather ts). auto.
    + left. exists e. split; auto. right. exists ra, dec, (csize cutsky), t, []. split; [exact Ec|]. split; [exact D|]. split; [reflexivity|]. split; reflexivity.
  - unfold io_ret in H. injection H as <- <-. right. split; auto. exists ra, dec, (csize cutsky), t, []. split; [exact Ec|]. split; [exact D|]. split; [reflexivity|]. rewrite G. split; [|reflexivity]. unfold region_files. rewrite G. reflexivity.
Qed.
Lemma loop_ok : forall inside i regions box n, ready i box n -> sky_area (i_desi i) inside -> (forall s z, List.length (i_smear i s z) = List.length z) -> splines (i_make i) -> splits (i_split i) -> shares (i_share i) -> NoDup regions ->
  forall l pre fs r, regions = (pre ++ l)%list -> each (region_step call_meant i regions box) l = (fs, r) -> left_behind inside i box (Z.of_nat (List.length pre)) l fs r.
Proof.
  intros inside i regions box n Rd A Sm Sp Sl Sh Nd. induction l as [|region l IH]; intros pre fs r E H; cbn [each] in H.
  - injection H as <- <-. constructor.
  - assert (Ni : ~ In region l) by (rewrite E in Nd; apply NoDup_remove_2 in Nd; intros I; apply Nd; apply in_or_app; auto).
    destruct (region_step call_meant i regions box region) as [f1 r1] eqn:Es. unfold io_bind in H.
    assert (L : last_index region regions = Some (Z.of_nat (List.length pre))) by (rewrite E; apply last_index_ok; auto).
    destruct (region_ok inside i regions box n region _ f1 r1 Rd A Sm Sp Sl Sh L Es) as [ (e & -> & Q)|[-> Q] ].
    + injection H as <- <-. destruct Q as [->|Q]; [apply left_nothing|apply left_data; exact Q].
    + destruct (each _ l) as [f2 r2] eqn:El. injection H as <- <-. apply left_all; [exact Q|]. replace (Z.of_nat (List.length pre) + 1)%Z with (Z.of_nat (List.length (pre ++ [region]))) by (rewrite app_length; cbn; lia).
      apply IH; [rewrite E, <- app_assoc; reflexivity|reflexivity].
Qed.
