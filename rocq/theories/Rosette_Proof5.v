Require Import Reals Lra Lia ZArith String List Bool Sorted.
From Verif Require Import Base Vec3 Cutsky_Model Box_Model Box_Spec Box_Proof Box_Proof2 Box_Proof3 Box_Proof4 Law_Spec Law_Proof Law_Proof2 Law_Thm Script_Thm.
From Verif Require Import SV3_Model SV3_Thm Rosette_Model Rosette_Spec Rosette_Proof3.
Import ListNotations.
Open Scope R_scope.

(* ---------- the share of the grid below a number ---------- *)
Lemma count_below : forall n F, Rmin (INR n) F <= Rsum (map (fun i => ind (Rltb (INR i) F)) (seq 0 n)).
Proof.
  induction n as [|n IH]; intros F; [apply Rmin_l|]. rewrite seq_S, map_app. unfold Rsum. rewrite fold_right_app. cbn [map fold_right Nat.add].
  assert (E : forall l a, fold_right Rplus a l = Rsum l + a) by (induction l as [|x l IHl]; intros a; unfold Rsum in *; cbn; [ring|rewrite IHl; ring]). rewrite E. specialize (IH F). rewrite S_INR.
  destruct (Rltb (INR n) F) eqn:B; cbn [ind]; [apply Rltb_true in B|apply Rltb_false in B]; unfold Rmin in *; destruct (Rle_dec (INR n) F), (Rle_dec (INR n + 1) F); lra.
Qed.
Lemma share_below : forall m p, (0 < m)%nat -> 0 <= p <= 1 -> p <= avg (grid m) (fun u => ind (Rltb u p)) <= p + 1 / INR m.
Proof.
  intros m p M P. assert (N : 0 < INR m) by (apply lt_0_INR; lia). split.
  - unfold avg, grid. rewrite map_map, map_length, seq_length. apply Rmult_le_reg_r with (INR m); auto. unfold Rdiv. rewrite Rmult_assoc, Rinv_l, Rmult_1_r by lra.
    rewrite (map_ext _ (fun i => ind (Rltb (INR i) (p * INR m)))).
    + pose proof (count_below m (p * INR m)) as C. unfold Rmin in C. destruct (Rle_dec (INR m) (p * INR m)); nra.
    + intros i. f_equal. destruct (Rltb (INR i) (p * INR m)) eqn:B.
      * apply Rltb_true in B. apply Rltb_true. apply Rmult_lt_reg_r with (INR m); auto. unfold Rdiv. rewrite Rmult_assoc, Rinv_l by lra. lra.
      * apply Rltb_false in B. apply Rltb_false. apply Rmult_le_reg_r with (INR m); auto. unfold Rdiv. rewrite Rmult_assoc, Rinv_l by lra. lra.
  - eapply Rle_trans; [|apply (proj2 (grid_share m p M P))]. apply avg_mono. intros x _. destruct (Rltb x p) eqn:B; cbn [ind].
    + apply Rltb_true in B. rewrite (proj2 (Rleb_true x p) ltac:(lra)). cbn. lra.
    + destruct (Rleb x p); cbn; lra.
Qed.
Lemma share_all : forall m p, (0 < m)%nat -> 1 <= p -> avg (grid m) (fun u => ind (Rltb u p)) = 1.
Proof.
  intros m p M P. unfold avg. rewrite (map_ext_in _ (fun _ => 1)).
  - rewrite rsum_one. unfold Rdiv. apply Rinv_r. apply not_0_INR. unfold grid. rewrite map_length, seq_length. lia.
  - intros x Hx. pose proof (grid_in m x Hx). rewrite (proj2 (Rltb_true x p) ltac:(lra)). reflexivity.
Qed.

(* ---------- the files of a region ---------- *)
Lemma rows_csize : forall n c, pc_data c <> [] -> rows_ok n c -> rows_ok (csize c) c.
Proof. intros n c Ne W m x H. rewrite (W m x H). unfold csize. unfold rows_ok in W. destruct (pc_data c) as [|[k y] l]; [destruct H|]. specialize (W k y (or_introl eq_refl)). destruct y; cbn in W; auto. Qed.
Lemma thin_ok : forall u p cat, rows_ok (csize cat) cat -> exists thin, Box_Model.select_rows (thin_mask u p (csize cat)) cat = Ok thin /\ INR (csize thin) = Rsum (map (fun j => ind (Rltb (u j) p)) (seq 0 (csize cat))) /\
  forall z, z ^ csize thin = Rprod (map (fun j => if Rltb (u j) p then z else 1) (seq 0 (csize cat))).
Proof.
  intros u p cat W. assert (L : List.length (thin_mask u p (csize cat)) = csize cat) by (unfold thin_mask, numbers; rewrite !map_length, seq_length; auto).
  destruct (kept_rows _ _ _ L W) as (thin & E & _). exists thin. split; [exact E|]. destruct (thin_rows _ _ _ _ E) as (_ & _ & _ & ->). unfold thin_mask, numbers. rewrite map_map. generalize (seq 0 (csize cat)). intros l. split.
  - induction l as [|j l IH]; cbn [map filter]; [reflexivity|]. unfold Rsum in *. cbn [fold_right]. destruct (Rltb (u j) p); cbn [List.length ind]; [rewrite S_INR, IH; ring|rewrite IH; ring].
  - intros z. induction l as [|j l IH]; cbn [map filter]; [reflexivity|]. unfold Rprod in *. cbn [fold_right]. rewrite <- IH. destruct (Rltb (u j) p); cbn [List.length pow]; ring.
Qed.
Lemma thin_loop_files : forall i d imock p l, i_outdir i = Some d -> (forall x, In x l -> rows_ok (csize (snd x)) (snd x)) -> exists fs, thin_loop i imock p l = (fs, Ok tt) /\
  (forall z, Rprod (map (fun f => z (fst f) ^ csize (snd f)) fs) = Rprod (map (fun x => Rprod (map (fun j => if Rltb (i_thin i imock (fst (fst x)) j) p then z (fn d "data" (fst (fst x)) imock) else 1) (seq 0 (csize (snd x))))) l)) /\
  Rsum (map (fun f => INR (csize (snd f))) fs) = Rsum (map (fun x => Rsum (map (fun j => ind (Rltb (i_thin i imock (fst (fst x)) j) p)) (seq 0 (csize (snd x))))) l).
Proof.
  intros i d imock p l Ed. induction l as [|[[ros reg] cat] l IH]; intros W; [exists []; cbn; auto|].
  destruct (thin_ok (i_thin i imock ros) p cat (W _ (or_introl eq_refl))) as (thin & Et & Es & Ez). destruct (IH (fun x h => W x (or_intror h))) as (fs & El & Pz & Ps).
  exists ((fn d "data" ros imock, thin) :: fs). cbn [thin_loop]. rewrite Et. cbn [io_ret io_bind]. unfold write, catalog_fn. rewrite Ed. cbn [io_bind]. fold (fn d "data" ros imock). rewrite El. split; [reflexivity|]. split.
  - intros z. cbn [map fst snd]. unfold Rprod in *. cbn [fold_right]. rewrite Pz, Ez. reflexivity.
  - cbn [map fst snd]. unfold Rsum in *. cbn [fold_right]. rewrite Ps, Es. reflexivity.
Qed.
Definition mine (region : string) (all : list (list BinNums.Z * string * pcat)) := filter (fun x : list BinNums.Z * string * pcat => String.eqb (snd (fst x)) region) all.
Lemma thin_region_files : forall i d imock all region, i_outdir i = Some d -> (forall x, In x all -> rows_ok (csize (snd x)) (snd x)) -> (0 < region_total region all)%nat ->
  let p := INR (i_ndata i region) / INR (region_total region all) in exists fs, thin_region i imock all region = (fs, Ok tt) /\
  (forall z, Rprod (map (fun f => z (fst f) ^ csize (snd f)) fs) = Rprod (map (fun x => Rprod (map (fun j => if Rltb (i_thin i imock (fst (fst x)) j) p then z (fn d "data" (fst (fst x)) imock) else 1) (seq 0 (csize (snd x))))) (mine region all))) /\
  Rsum (map (fun f => INR (csize (snd f))) fs) = Rsum (map (fun x => Rsum (map (fun j => ind (Rltb (i_thin i imock (fst (fst x)) j) p)) (seq 0 (csize (snd x))))) (mine region all)).
Proof.
  intros i d imock all region Ed W T p. unfold thin_region. fold (mine region all). fold (region_total region all).
  destruct (thin_loop_files i d imock p (mine region all) Ed) as (fs & E & A & B); [intros x H; apply W; apply filter_In in H; tauto|].
  exists fs. split; [|auto]. change (fold_right (fun x n => (csize (snd x) + n)%nat) 0%nat (mine region all)) with (region_total region all). unfold fdiv.
  destruct (Req_EM_T (INR (region_total region all)) 0) as [Z0|_]; [exfalso; apply lt_0_INR in T; lra|]. cbn [io_ret io_bind]. fold p. rewrite E. reflexivity.
Qed.
Lemma places_nodup : forall rank l, NoDup (map (fun x : list BinNums.Z * string * pcat => rank (fst (fst x))) l) -> NoDup (places_of rank l).
Proof.
  intros rank l. unfold places_of. induction l as [|x l IH]; intros N; cbn; [constructor|]. inversion N as [|? ? N1 N2]; subst.
  assert (App : forall (a b : list place), NoDup a -> NoDup b -> (forall k, In k a -> ~ In k b) -> NoDup (a ++ b)).
  { clear. induction a as [|k a IHa]; intros b A B D; cbn; auto. inversion A; subst. constructor; [rewrite in_app_iff; intros [H|H]; [auto|apply (D k (or_introl eq_refl) H)]|apply IHa; auto; intros; apply D; right; auto]. }
  apply App; [apply row_NoDup|auto|]. intros k Hk Hl. apply in_map_iff in Hk. destruct Hk as (j & <- & _). apply in_flat_map in Hl. destruct Hl as (y & Hy & Hk). apply in_map_iff in Hk. destruct Hk as (j' & E & _). injection E as E _.
  apply N1. rewrite <- E. apply in_map_iff. exists y. auto.
Qed.
Lemma prod_places : forall rank l (h : place -> R), Rprod (map h (places_of rank l)) = Rprod (map (fun x : list BinNums.Z * string * pcat => Rprod (map (fun j => h (0%nat, rank (fst (fst x)), j)) (seq 0 (csize (snd x))))) l).
Proof.
  intros rank l h. unfold places_of. induction l as [|x l IH]; cbn [flat_map map]; [reflexivity|]. rewrite map_app, map_map.
  assert (E : forall a b, Rprod (a ++ b) = Rprod a * Rprod b) by (induction a as [|y a IHa]; intros b; unfold Rprod in *; cbn; [ring|rewrite IHa; ring]). rewrite E. etransitivity; [apply f_equal; exact IH|reflexivity].
Qed.
Lemma sum_places : forall rank l (h : place -> R), Rsum (map h (places_of rank l)) = Rsum (map (fun x : list BinNums.Z * string * pcat => Rsum (map (fun j => h (0%nat, rank (fst (fst x)), j)) (seq 0 (csize (snd x))))) l).
Proof.
  intros rank l h. unfold places_of. induction l as [|x l IH]; cbn [flat_map map]; [reflexivity|]. rewrite map_app, map_map.
  assert (E : forall a b, Rsum (a ++ b) = Rsum a + Rsum b) by (induction a as [|y a IHa]; intros b; unfold Rsum in *; cbn; [ring|rewrite IHa; ring]). rewrite E. etransitivity; [apply f_equal; exact IH|reflexivity].
Qed.
Lemma places_length : forall rank region all, List.length (places_of rank (mine region all)) = region_total region all.
Proof. intros rank region all. unfold region_total. fold (mine region all). unfold places_of. induction (mine region all) as [|x l IH]; cbn; [reflexivity|]. rewrite app_length, map_length, seq_length. f_equal. exact IH. Qed.
Lemma rprod_const : forall {A} (l : list A) c, Rprod (map (fun _ => c) l) = c ^ List.length l.
Proof. intros A l c. induction l as [|x l IH]; cbn; [reflexivity|]. unfold Rprod in *. cbn. rewrite IH. reflexivity. Qed.

(** Value given to a rank: that of the group of this rank. *)
Definition at_rank (rank : list BinNums.Z -> nat) (v : list BinNums.Z -> R) (l : list (list BinNums.Z * string * pcat)) (r : nat) : R :=
  match find (fun x => Nat.eqb (rank (fst (fst x))) r) l with Some x => v (fst (fst x)) | None => 1 end.
Lemma at_rank_ok : forall rank v l x, NoDup (map (fun x : list BinNums.Z * string * pcat => rank (fst (fst x))) l) -> In x l -> at_rank rank v l (rank (fst (fst x))) = v (fst (fst x)).
Proof.
  intros rank v l x. unfold at_rank. induction l as [|y l IH]; intros N H; [destruct H|]. inversion N as [|? ? N1 N2]; subst. cbn [find]. destruct (Nat.eqb_spec (rank (fst (fst y))) (rank (fst (fst x)))) as [E|E].
  - destruct H as [->|H]; [reflexivity|]. exfalso. apply N1. rewrite E. apply in_map_iff. eauto.
  - destruct H as [->|H]; [contradiction|auto].
Qed.

Section Law.
Variables (i : inputs) (d : string) (imock : BinNums.Z) (all : list (list BinNums.Z * string * pcat)) (region : string) (rank : list BinNums.Z -> nat) (m : nat).
Hypothesis Ed : i_outdir i = Some d.
Hypothesis W : forall x, In x all -> rows_ok (csize (snd x)) (snd x).
Hypothesis T : (0 < region_total region all)%nat.
Hypothesis M : (0 < m)%nat.
Hypothesis N : NoDup (map (fun x : list BinNums.Z * string * pcat => rank (fst (fst x))) (mine region all)).
Let p := INR (i_ndata i region) / INR (region_total region all).
Let q := avg (grid m) (fun u => ind (Rltb u p)).
Let run s := thin_region (with_thin i (from_places rank s)) imock all region.

Lemma number_law : forall z s0, mean (grid m) (places_of rank (mine region all)) (fun s => Rprod (map (fun f => z (fst f) ^ csize (snd f)) (fst (run s)))) s0 =
  Rprod (map (fun x => (1 - q + q * z (fn d "data" (fst (fst x)) imock)) ^ csize (snd x)) (mine region all)).
Proof.
  intros z s0. set (v := fun ros => z (fn d "data" ros imock)). set (h := fun (k : place) x => if Rltb x p then at_rank rank v (mine region all) (snd (fst k)) else 1).
  transitivity (mean (grid m) (places_of rank (mine region all)) (fun s => Rprod (map (fun k => h k (s k)) (places_of rank (mine region all)))) s0).
  - apply mean_ext. intros s. unfold run. destruct (thin_region_files (with_thin i (from_places rank s)) d imock all region Ed W T) as (fs & E & A & _). rewrite E. cbn [fst]. rewrite A.
    rewrite (prod_places rank (mine region all) (fun k => h k (s k))). f_equal. apply map_ext_in. intros x Hx. f_equal. apply map_ext_in. intros j _. unfold h. cbn [fst snd]. rewrite (at_rank_ok rank v _ _ N Hx). reflexivity.
  - rewrite mean_prod by (apply places_nodup; exact N). rewrite (prod_places rank (mine region all) (fun k => avg (grid m) (h k))). f_equal. apply map_ext_in. intros x Hx.
    assert (Eh : forall j, avg (grid m) (h (0%nat, rank (fst (fst x)), j)) = 1 - q + q * v (fst (fst x))).
    { intros j. unfold h. cbn [fst snd]. rewrite (at_rank_ok rank v _ _ N Hx). set (w := v (fst (fst x))).
      rewrite (avg_ext _ _ (fun u => (w - 1) * ind (Rltb u p) + 1 * 1)) by (intros u; destruct (Rltb u p); cbn; ring).
      rewrite (avg_lin (grid m) (w - 1) 1 (fun u => ind (Rltb u p)) (fun _ => 1)). rewrite avg_const by (apply grid_nil; exact M). fold q. ring. }
    rewrite (map_ext _ (fun _ => 1 - q + q * v (fst (fst x))) Eh). rewrite rprod_const, seq_length. reflexivity.
Qed.
Lemma number_mean : forall s0, mean (grid m) (places_of rank (mine region all)) (fun s => Rsum (map (fun f => INR (csize (snd f))) (fst (run s)))) s0 = INR (region_total region all) * q.
Proof.
  intros s0. pose proof (places_nodup rank _ N) as Nk.
  transitivity (mean (grid m) (places_of rank (mine region all)) (fun s => Rsum (map (fun k => ind (Rltb (s k) p)) (places_of rank (mine region all)))) s0).
  - apply mean_ext. intros s. unfold run. destruct (thin_region_files (with_thin i (from_places rank s)) d imock all region Ed W T) as (fs & E & _ & B). rewrite E. cbn [fst]. rewrite B.
    rewrite (sum_places rank (mine region all) (fun k => ind (Rltb (s k) p))). reflexivity.
  - rewrite (mean_rsum (grid m) _ (places_of rank (mine region all)) (fun k s => ind (Rltb (s k) p))).
    rewrite (map_ext_in _ (fun _ => q)).
    + rewrite <- (places_length rank). generalize (places_of rank (mine region all)). intros l. induction l as [|k l IH]; [cbn; ring|]. unfold Rsum in *. cbn [map fold_right List.length]. rewrite IH, S_INR. ring.
    + intros k Hk. transitivity (mean (grid m) (places_of rank (mine region all)) (fun s => joint [fun u => ind (Rltb u p)] (map s [k])) s0); [apply mean_ext; intros s; cbn; ring|].
      rewrite mean_joint; [unfold Rprod; cbn; fold q; ring|apply grid_nil; exact M|exact Nk|constructor; [intros []|constructor]|intros y [<-|[]]; exact Hk|reflexivity].
Qed.
End Law.
