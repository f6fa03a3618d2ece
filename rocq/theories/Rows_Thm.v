(** Property C93: objects are treated one by one. Catalogs put together, catalogs of one object and row-wise masks are in Rows_Spec.v. *)
Require Import Reals Lra Lia ZArith String List Bool.
From Verif Require Import Base Vec3 Isometry_Model Sky_Model Cutsky_Model Box_Model Rsd_Model Remap_Model Isometry_Proof Box_Spec Box_Proof Box_Thm Unit_Spec Move_Spec Rows_Spec Rows_Proof.
Import ListNotations.
Open Scope R_scope.

(** Any sequence of translations, recenterings, rotations, cuts and remappings of a catalog made of two pieces gives the results for the pieces, put together; it raises if and only if it raises for one of them. *)
Theorem C93_pieces : forall a b calls c, alike_box a b -> Forall not_pad calls ->
  (box_run (append_box a b) calls = Ok c <-> exists a' b', box_run a calls = Ok a' /\ box_run b calls = Ok b' /\ alike_box a' b' /\ c = append_box a' b').
Proof.
  intros a b calls c H N. pose proof (run_splits calls a b H N) as S. destruct (box_run a calls) as [a'|e]; [destruct (box_run b calls) as [b'|e]|]; cbn [splits] in S.
  - destruct S as [-> L]. split; [intros [= <-]; eauto 6|]. intros (a1 & b1 & [= <-] & [= <-] & _ & ->). reflexivity.
  - destruct S as [e' ->]. split; [discriminate|]. intros (a1 & b1 & _ & [=] & _).
  - destruct S as [e' ->]. split; [discriminate|]. intros (a1 & b1 & [=] & _).
Qed.
Print Assumptions C93_pieces.

Lemma col_row_type : forall i j x, same_type (col_row i x) (col_row j x). Proof. intros i j [l|l]; exact Logic.I. Qed.
Lemma row_has : forall i n c, has_rows n (pc_data (bc_cat c)) -> exists k, has_rows k (pc_data (bc_cat (row i c))).
Proof.
  intros i n c R. exists (Nat.min 1 (n - i)). cbn [row bc_cat pc_data]. unfold has_rows in *. rewrite Forall_map. eapply Forall_impl; [|exact R]. intros [m [l|l]] E; cbn [snd col_row col_length] in *; rewrite firstn_length, skipn_length, E; reflexivity.
Qed.
Lemma row_alike : forall i j n c, has_rows n (pc_data (bc_cat c)) -> alike_box (row i c) (row j c).
Proof.
  intros i j n c R. split; [|split; reflexivity]. split; [|split; [eapply row_has; eauto|split; [eapply row_has; eauto|repeat split]]]. cbn [row bc_cat pc_data]. clear R. induction (pc_data (bc_cat c)) as [|x l IH]; cbn [map]; constructor; auto. cbn. split; auto. apply col_row_type.
Qed.
Lemma append_rows : forall na nb a b, like_data a b -> has_rows na a -> has_rows nb b -> has_rows (na + nb) (append_data a b).
Proof. intros na nb a b L. induction L as [|[n x] [n' y] a b [E S] L IH]; intros HA HB; cbn [append_data]; [constructor|]. inversion HA; inversion HB; subst. constructor; [|apply IH; auto]. cbn in *. rewrite append_length; auto. Qed.
Lemma alike_append : forall a b c, alike_box a b -> alike_box a c -> alike_box b c -> alike_box a (append_box b c).
Proof.
  intros a b c (H1 & X1 & X2) (H2 & _) (H3 & _). split; [|cbn [append_box boxsize boxcenter]; auto]. destruct H1 as (L & R & [nb Rb] & E), H2 as (L2 & _ & [nc Rc] & _), H3 as (L3 & _). split; [|split; [exact R|split; [exists (nb + nc)%nat; apply append_rows; auto|exact E]]].
  cbn [append_box append bc_cat pc_data]. clear - L L3. unfold like_data in *. revert L3. generalize (pc_data (bc_cat c)). induction L as [|[n x] [n' y] l m [E S] L IH]; intros k K; inversion K as [|? [n2 z] ? k' [E2 S2] K2]; subst; cbn [append_data]; constructor; [|apply IH; auto].
  cbn in *. split; auto. destruct x, y, z; auto.
Qed.
Lemma rows_alike : forall n c is i j, has_rows n (pc_data (bc_cat c)) -> alike_box (row i c) (rows c j is).
Proof.
  intros n c. induction is as [|k is IH]; intros i j R; [eapply row_alike; eauto|]. change (rows c j (k :: is)) with (append_box (row j c) (rows c k is)). apply alike_append; [eapply row_alike; eauto| |]; apply IH; auto.
Qed.
(** A selection of rows, in any order and with repetitions: the sequence of calls gives what it gives for each object alone, put together in the same order. *)
Theorem C93_one_by_one : forall c n i is calls c', has_rows n (pc_data (bc_cat c)) -> Forall not_pad calls ->
  (box_run (rows c i is) calls = Ok c' <-> exists r rs, box_run (row i c) calls = Ok r /\ Forall2 (fun j x => box_run (row j c) calls = Ok x) is rs /\ c' = together r rs).
Proof.
  intros c n i is calls c' R N. revert i c'. induction is as [|j is IH]; intros i c'.
  - cbn [rows together map]. split; [intros E; exists c', []; auto|]. intros (r & rs & E & F & ->). inversion F; subst. exact E.
  - change (rows c i (j :: is)) with (append_box (row i c) (rows c j is)). rewrite C93_pieces by (auto; eapply rows_alike; eauto). split.
    + intros (a & b & A & B & _ & ->). apply IH in B. destruct B as (r & rs & B & F & ->). exists a, (r :: rs). auto.
    + intros (r & rs & A & F & ->). inversion F as [|? x ? xs B F']; subst. assert (B' : box_run (rows c j is) calls = Ok (together x xs)) by (apply IH; eauto).
      exists r, (together x xs). split; auto. split; auto. split; [|reflexivity].
      pose proof (run_splits calls _ _ (rows_alike n c is i j R) N) as S. rewrite A, B' in S. apply S.
Qed.
Print Assumptions C93_one_by_one.

Lemma data_eq : forall d d' p v vs is, d = d' -> PCat d p v vs is = PCat d' p v vs is. Proof. intros; subst; reflexivity. Qed.
Definition col_slice (k n : nat) (x : col) : col := match x with ColV l => ColV (firstn n (skipn k l)) | ColS l => ColS (firstn n (skipn k l)) end.
Lemma slice_next : forall {A} k n (l : list A), firstn 1 (skipn k l) ++ firstn n (skipn (S k) l) = firstn (S n) (skipn k l).
Proof. intros A k n. induction k as [|k IH]; intros [|a l]; [destruct n; reflexivity|reflexivity|destruct n; reflexivity|exact (IH l)]. Qed.
Lemma rows_slice : forall c n k, rows c k (seq (S k) n) =
  BoxCat (PCat (map (fun x => (fst x, col_slice k (S n) (snd x))) (pc_data (bc_cat c))) (pc_position (bc_cat c)) (pc_velocity (bc_cat c)) (pc_vectors (bc_cat c)) (pc_invariants (bc_cat c))) (boxsize c) (boxcenter c).
Proof.
  intros c. induction n as [|n IH]; intros k; [reflexivity|]. cbn [seq]. change (rows c k (S k :: seq (S (S k)) n)) with (append_box (row k c) (rows c (S k) (seq (S (S k)) n))). rewrite IH. unfold append_box, append; cbn [row bc_cat pc_data pc_position pc_velocity pc_vectors pc_invariants boxsize boxcenter].
  apply f_equal3; [|reflexivity|reflexivity]. apply data_eq. clear IH. induction (pc_data (bc_cat c)) as [|[m x] d IHd]; cbn [map append_data fst snd]; auto. rewrite IHd. apply (f_equal2 cons); auto. apply (f_equal (pair m)). destruct x as [l|l]; cbn [col_row col_slice append_col]; rewrite slice_next; reflexivity.
Qed.
(** Every catalog is that of its rows. *)
Theorem C93_rows : forall c n, has_rows (S n) (pc_data (bc_cat c)) -> rows c 0 (seq 1 n) = c.
Proof.
  intros [[d p v vs is] size center] n R. rewrite rows_slice. cbn [bc_cat pc_data pc_position pc_velocity pc_vectors pc_invariants boxsize boxcenter] in *. apply f_equal3; [|reflexivity|reflexivity]. apply data_eq.
  induction R as [|[m [l|l]] d E R IH]; cbn [map fst snd]; auto; rewrite IH; cbn [col_slice skipn]; rewrite firstn_all2; auto; cbn in E; lia.
Qed.
Print Assumptions C93_rows.

(** Redshift space distortions with a number as factor, along an axis or from the observer: those of the pieces, and of each object. *)
Theorem C93_rsd : forall a b f los l, alike a b ->
  (rsd_position (append a b) (FNum f) los = Ok l <-> exists la lb, rsd_position a (FNum f) los = Ok la /\ rsd_position b (FNum f) los = Ok lb /\ l = la ++ lb).
Proof.
  intros a b f los l H. pose proof (rsd_splits a b f los H) as S. destruct (rsd_position a _ _) as [la|e]; [destruct (rsd_position b _ _) as [lb|e]|]; cbn [splits] in S.
  - destruct S as [-> _]. split; [intros [= <-]; eauto 6|]. intros (x & y & [= <-] & [= <-] & ->). reflexivity.
  - destruct S as [e' ->]. split; [discriminate|]. intros (x & y & _ & [=] & _).
  - destruct S as [e' ->]. split; [discriminate|]. intros (x & y & [=] & _).
Qed.
Print Assumptions C93_rsd.
Theorem C93_rsd_one_by_one : forall c n i is f los l, has_rows n (pc_data (bc_cat c)) ->
  (rsd_position (bc_cat (rows c i is)) (FNum f) los = Ok l <-> exists ls, Forall2 (fun j x => rsd_position (bc_cat (row j c)) (FNum f) los = Ok x) (i :: is) ls /\ l = List.concat ls).
Proof.
  intros c n i is f los l R. revert i l. induction is as [|j is IH]; intros i l.
  - cbn [rows together map]. split; [intros E; exists [l]; split; [repeat constructor; auto|cbn; rewrite app_nil_r; auto]|]. intros (ls & F & ->). inversion F as [|? ? ? ? A B]; inversion B; subst. cbn. rewrite app_nil_r. auto.
  - change (rows c i (j :: is)) with (append_box (row i c) (rows c j is)). cbn [append_box bc_cat]. rewrite C93_rsd by (apply (rows_alike n c is i j R)). split.
    + intros (a & b & A & B & ->). apply IH in B. destruct B as (ls & F & ->). exists (a :: ls). split; auto.
    + intros (ls & F & ->). inversion F as [|? x ? xs A B]; subst. exists x, (List.concat xs). split; auto. split; auto. apply IH. eauto.
Qed.
Print Assumptions C93_rsd_one_by_one.

(** Masks that treat objects one by one are those given by a condition on each. *)
Theorem C93_masks : (forall m : rmask, row_mask m /\ mask_length m <-> exists p, forall l, m l = map p l) /\
  (forall m : amask, (exists p, forall a b, length a = length b -> m a b = map (fun x => p (fst x) (snd x)) (combine a b)) <-> row_mask2 m /\ mask_length2 m).
Proof.
  split; intros m; split.
  - intros [H L]. exists (fun x => hd true (m [x])). induction l as [|x l IH]; [specialize (L []); destruct (m []); [auto|discriminate]|]. change (x :: l) with ([x] ++ l). rewrite H, IH, map_app. f_equal. cbn [map]. specialize (L [x]). destruct (m [x]) as [|b [|b' k]]; try discriminate. reflexivity.
  - intros [p P]. split; [intros l l'; rewrite !P; apply map_app|]. intros l. rewrite P. apply map_length.
  - intros [p P]. split.
    + intros a a' b b' E E'. rewrite !P by (rewrite ?app_length; congruence). rewrite <- map_app. f_equal. clear - E. revert b E. induction a as [|x a IH]; intros [|y b] E; cbn in E; try discriminate; cbn; auto. f_equal. apply IH. lia.
    + intros a b E. rewrite P by auto. rewrite map_length, combine_length. lia.
  - intros [H L]. exists (fun x y => hd true (m [x] [y])). induction a as [|x a IH]; intros [|y b] E; cbn in E; try discriminate.
    + specialize (L [] [] eq_refl). destruct (m [] []); [auto|discriminate].
    + change (x :: a) with ([x] ++ a). change (y :: b) with ([y] ++ b). rewrite H by (auto; cbn; lia). rewrite IH by lia. cbn [List.app combine map fst snd]. specialize (L [x] [y] eq_refl). destruct (m [x] [y]) as [|z [|z' k]]; try discriminate. reflexivity.
Qed.
Print Assumptions C93_masks.

Lemma lists_splits : forall {A B} app like (f fa fb : A -> result B) l, (forall a, splits app like (f a) (fa a) (fb a)) ->
  match map_result fa l, map_result fb l with Ok x, Ok y => map_result f l = Ok (map (fun z => app (fst z) (snd z)) (combine x y)) /\ length x = length y | _, _ => exists e, map_result f l = Err e end.
Proof.
  intros A B app like f fa fb l H. induction l as [|a l IH]; cbn [map_result]; [auto|]. specialize (H a). destruct (fa a) as [x|e]; cbn [bind].
  - destruct (fb a) as [y|e]; cbn [bind].
    + cbn [splits] in H. destruct H as [-> _]. cbn [bind]. destruct (map_result fa l) as [xs|e]; cbn [bind].
      * destruct (map_result fb l) as [ys|e]; cbn [bind]; [destruct IH as [-> E]; cbn; auto|destruct IH as [e' ->]; cbn; eauto].
      * destruct IH as [e' ->]; cbn; eauto.
    + cbn [splits] in H. destruct H as [e' ->]. cbn [bind]. destruct (map_result fa l); cbn [bind]; eauto.
  - cbn [splits] in H. destruct H as [e' ->]. cbn. eauto.
Qed.
(** Cut skies: each is made of those of the pieces, with all their columns. *)
Theorem C93_cutsky : forall a b drange rarange decrange em im noutput mr ma rdd l, alike_box a b -> opt row_mask mr -> opt mask_length mr -> opt row_mask2 ma -> opt mask_length2 ma ->
  (cutsky (append_box a b) drange rarange decrange em im noutput mr ma rdd = Ok l <->
   exists la lb, cutsky a drange rarange decrange em im noutput mr ma rdd = Ok la /\ cutsky b drange rarange decrange em im noutput mr ma rdd = Ok lb /\ length la = length lb /\
     l = map (fun z => append (fst z) (snd z)) (combine la lb)).
Proof.
  intros a b drange rarange decrange em im noutput mr ma rdd l H M1 M2 M3 M4. pose proof H as (_ & E1 & E2). unfold cutsky.
  replace (isometry_for_cutsky (append_box a b) drange rarange decrange em im noutput) with (isometry_for_cutsky a drange rarange decrange em im noutput) by reflexivity.
  replace (isometry_for_cutsky b drange rarange decrange em im noutput) with (isometry_for_cutsky a drange rarange decrange em im noutput) by (unfold isometry_for_cutsky; rewrite E1, E2; reflexivity).
  destruct (isometry_for_cutsky a drange rarange decrange em im noutput) as [s|e]; cbn [bind]; [|split; [discriminate|intros (x & y & [=] & _)] ].
  assert (X : match cutsky_from_isometry a s mr ma rdd, cutsky_from_isometry b s mr ma rdd with Ok x, Ok y => cutsky_from_isometry (append_box a b) s mr ma rdd = Ok (map (fun z => append (fst z) (snd z)) (combine x y)) /\ length x = length y
    | _, _ => exists e, cutsky_from_isometry (append_box a b) s mr ma rdd = Err e end).
  { destruct s as [s|ss]; cbn [cutsky_from_isometry].
    - pose proof (cutsky_splits a b s mr ma rdd H M1 M2 M3 M4) as S. destruct (cutsky_from_isometry1 a s mr ma rdd) as [x|e]; [destruct (cutsky_from_isometry1 b s mr ma rdd) as [y|e]|]; cbn [splits] in S; cbn [bind].
      + destruct S as [-> _]. cbn. auto.
      + destruct S as [e' ->]. cbn. eauto.
      + destruct S as [e' ->]. cbn. eauto.
    - apply (lists_splits append alike). intros s. apply cutsky_splits; auto. }
  destruct (cutsky_from_isometry a s mr ma rdd) as [x|e]; [destruct (cutsky_from_isometry b s mr ma rdd) as [y|e]|].
  - destruct X as [-> E]. split; [intros [= <-]; eauto 6|]. intros (x' & y' & [= <-] & [= <-] & _ & ->). reflexivity.
  - destruct X as [e' ->]. split; [discriminate|]. intros (x' & y' & _ & [=] & _).
  - destruct X as [e' ->]. split; [discriminate|]. intros (x' & y' & [=] & _).
Qed.
Print Assumptions C93_cutsky.

(** With a callable as factor, redshift space distortions do depend on the number of objects: they are computed for one object and raise for two. *)
Definition one_object (p v : vec) : pcat := pcat_new [("Position", ColV [p]); ("Velocity", ColV [v])]%string "Position" "Velocity" [] [].
Theorem C93_callable_refuted : forall f p v q w, alike (one_object p v) (one_object q w) /\ (exists l, rsd_position (one_object p v) (FFun f) (Some (AxStr "x")) = Ok l) /\ (exists l, rsd_position (one_object q w) (FFun f) (Some (AxStr "x")) = Ok l) /\
  rsd_position (append (one_object p v) (one_object q w)) (FFun f) (Some (AxStr "x")) = Err ValueError.
Proof.
  intros f p v q w. assert (GL : get_los (AxStr "x") = Ok (V 1 0 0)) by (apply (get_los_axis 0); lia).
  assert (ONE : forall v, vector_projection1 v (V 1 0 0) = Ok (V (vx v) 0 0)).
  { intros u. unfold vector_projection1. cbn [vx vy vz]. replace (1 ^ 2 + 0 ^ 2 + 0 ^ 2) with 1 by ring. rewrite sqrt_1. destruct (Req_EM_T 1 0) as [Z|Z]; [lra|]. f_equal. f_equal; field. }
  split; [|split; [|split]].
  - split; [repeat constructor|]. split; [exists 1%nat; repeat constructor|]. split; [exists 1%nat; repeat constructor|]. repeat split.
  - unfold rsd_position. rewrite GL. cbn -[vector_projection1]. rewrite ONE. cbn. eauto.
  - unfold rsd_position. rewrite GL. cbn -[vector_projection1]. rewrite ONE. cbn. eauto.
  - unfold rsd_position. rewrite GL. cbn -[vector_projection1]. rewrite !ONE. reflexivity.
Qed.
Print Assumptions C93_callable_refuted.

(** Two catalogs of two and one objects in a box, and calls that move, rotate and cut them. *)
Definition two_rows : boxcat := BoxCat (pcat_new [("Position", ColV [V 1 2 3; V 9 2 3]); ("Velocity", ColV [V 100 0 0; V 0 0 0]); ("Mass", ColS [1; 2])]%string "Position" "Velocity" [] []) (V 10 10 10) (V 5 5 5).
Definition one_row : boxcat := BoxCat (pcat_new [("Position", ColV [V 4 4 4]); ("Velocity", ColV [V 1 0 0]); ("Mass", ColS [3])]%string "Position" "Velocity" [] []) (V 10 10 10) (V 5 5 5).
Definition cut_calls : list box_call := [Subbox (ROne 0 (1 / 2)) true; Recenter].
Example C93_case : alike_box two_rows one_row /\ has_rows 2 (pc_data (bc_cat two_rows)) /\ Forall not_pad cut_calls /\ (exists c, box_run (append_box two_rows one_row) cut_calls = Ok c) /\ row_mask (map (fun d => Rleb d 3)).
Proof.
  split; [|split; [repeat constructor|split; [repeat constructor|split] ] ].
  - split; [|auto]. split; [repeat constructor|]. split; [exists 2%nat; repeat constructor|]. split; [exists 1%nat; repeat constructor|]. repeat split.
  - unfold cut_calls, two_rows, one_row, append_box, append. cbn [bc_cat pcat_new pc_data pc_position pc_velocity pc_vectors pc_invariants append_data append_col List.app boxsize boxcenter].
    cbn [box_run box_step]. unfold subbox at 1, position. cbn -[Rleb Rltb Rmax Rmin Rplus Rmult Rminus Rdiv boxlow boxhigh vsub vadd vscale recenter]. unfold recenter, translate. cbn -[Rleb Rltb Rmax Rmin Rplus Rmult Rminus Rdiv boxlow boxhigh vsub vadd vscale]. eauto.
  - intros l l'. apply map_app.
Qed.
