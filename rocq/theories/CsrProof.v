(** Lemmas about the compressed row construction. *)
From Verif Require Import Base CsrModel CsrSpec.

(** Start positions of consecutive rows, beginning at [a], with the end of the
    last row. *)
Fixpoint starts (a : nat) (rows : list (list nat)) : list nat :=
  match rows with [] => [a] | r :: rows => a :: starts (a + length r) rows end.

(** ** Counting *)
Definition cnt (ks : list nat) (i : nat) : nat := length (filter (λ k, k = i) ks).

Lemma cnt_cons k ks i : cnt (k :: ks) i = (if decide (k = i) then 1 else 0) + cnt ks i.
Proof. unfold cnt. rewrite filter_cons. by destruct (decide (k = i)). Qed.

Lemma cnt_app k1 k2 i : cnt (k1 ++ k2) i = cnt k1 i + cnt k2 i.
Proof. unfold cnt. by rewrite filter_app, app_length. Qed.

Lemma count_all_Some ia ks m :
  length ia = S m → Forall (λ k, k < m) ks →
  ∃ ia', count_all ia ks = Some ia' ∧ length ia' = S m ∧ ia' !! 0 = ia !! 0 ∧
    ∀ i x, ia !! S i = Some x → ia' !! S i = Some (x + cnt ks i).
Proof.
  revert ia. induction ks as [|k ks IH]; intros ia Hl Hf; simpl.
  - exists ia. split_and!; try done. intros i x ->. unfold cnt. simpl. f_equal. lia.
  - pose proof (Forall_cons_1 _ _ _ Hf) as [Hk Hks].
    destruct (lookup_lt_is_Some_2 ia (S k)) as [x Hx]; [lia|].
    unfold count_one. rewrite Hx. cbn [mbind option_bind].
    rewrite upd_Some by lia. cbn [mbind option_bind].
    destruct (IH (<[S k:=S x]> ia)) as (ia' & -> & Hl' & H0 & H); [by rewrite insert_length|done|].
    exists ia'. split_and!; [done|done| |].
    + rewrite H0. by rewrite list_lookup_insert_ne by lia.
    + intros i y Hy. rewrite cnt_cons. destruct (decide (k = i)) as [->|Hne].
      * assert (x = y) as -> by congruence. rewrite (H i (S y)); [f_equal; lia|]. apply list_lookup_insert. lia.
      * rewrite (H i y); [f_equal; lia|]. by rewrite list_lookup_insert_ne by lia.
Qed.

(** ** Scanning *)
Fixpoint offs (a : nat) (l : list nat) : list nat :=
  match l with [] => [] | x :: l => a :: offs (a + x) l end.

Lemma offs_length a l : length (offs a l) = length l.
Proof. revert a. induction l; intros; simpl; auto. Qed.

Lemma offs_lookup a l i : i < length l → offs a l !! i = Some (a + sum_list (take i l)).
Proof.
  revert a i. induction l as [|x l IH]; intros a i Hi; simpl in *; [lia|].
  destruct i as [|i]; simpl.
  - f_equal. lia.
  - rewrite IH by lia. f_equal. lia.
Qed.

Lemma scan_loop_gen a pre rest :
  scan_loop (length rest) (S (length pre)) (a :: pre ++ rest)
  = Some ((a + sum_list rest) :: pre ++ offs a rest).
Proof.
  revert a pre. induction rest as [|x rest IH]; intros a pre; simpl.
  - by rewrite Nat.add_0_r.
  - assert (E1 : ∀ b, (b :: pre ++ x :: rest) !! S (length pre) = Some x).
    { intros b. simpl. by rewrite lookup_app_r, Nat.sub_diag by lia. }
    simpl in E1. rewrite (E1 a). cbn [mbind option_bind].
    rewrite upd_Some by (simpl; rewrite app_length; simpl; lia). cbn [mbind option_bind].
    replace (<[S (length pre):=a + x - x]> (a + x :: pre ++ x :: rest))
      with ((a + x) :: (pre ++ [a]) ++ rest).
    2:{ simpl. f_equal. rewrite <- app_assoc. simpl. rewrite insert_app_r_alt by lia.
        rewrite Nat.sub_diag. simpl. do 2 f_equal. lia. }
    specialize (IH (a + x) (pre ++ [a])). rewrite app_length in IH. simpl in IH.
    rewrite Nat.add_1_r in IH. simpl. rewrite IH. do 2 f_equal; [lia|].
    by rewrite <- app_assoc.
Qed.

Lemma scan_loop_correct cnts :
  scan_loop (length cnts) 1 (0 :: cnts) = Some (sum_list cnts :: offs 0 cnts).
Proof. apply (scan_loop_gen 0 []). Qed.

(** ** Pushing *)
Section push.
Variable m : nat.
Variable items : list (nat * nat).
Hypothesis Hkeys : Forall (λ kv, kv.1 < m) items.

Let c i := length (row_of items i).
Let cs := c <$> seq 0 m.
Let off i := sum_list (take i cs).

Lemma cs_lookup i : i < m → cs !! i = Some (c i).
Proof. intros. unfold cs. rewrite list_lookup_fmap, lookup_seq_lt by lia. done. Qed.

Lemma off_S i : i < m → off (S i) = off i + c i.
Proof.
  intros Hi. unfold off. rewrite (take_S_r _ _ (c i)) by (by apply cs_lookup).
  rewrite sum_list_with_app. simpl. lia.
Qed.

Lemma off_mono i j : i ≤ j → j ≤ m → off i ≤ off j.
Proof.
  intros Hij. induction Hij as [|j Hij IH]; intros Hj; [done|].
  rewrite off_S by lia. pose proof (IH ltac:(lia)). lia.
Qed.

Lemma row_of_app l1 l2 i : row_of (l1 ++ l2) i = row_of l1 i ++ row_of l2 i.
Proof. unfold row_of. by rewrite filter_app, fmap_app. Qed.

Lemma row_of_single k v i : row_of [(k, v)] i = if decide (k = i) then [v] else [].
Proof. unfold row_of. rewrite filter_cons. simpl. by destruct (decide (k = i)). Qed.

Definition pinv (done : list (nat * nat)) (ia ja : list nat) : Prop :=
  length ia = S m ∧ length ja = off m ∧
  (∀ i, i < m → ia !! S i = Some (off i + length (row_of done i))) ∧
  (∀ i t, i < m → t < length (row_of done i) → ja !! (off i + t) = row_of done i !! t).

Lemma push_all_inv done rest ia ja :
  items = done ++ rest → pinv done ia ja →
  ∃ ia' ja', push_all (ia, ja) rest = Some (ia', ja') ∧ ia' !! 0 = ia !! 0 ∧ pinv items ia' ja'.
Proof.
  revert done ia ja. induction rest as [|[k v] rest IH]; intros done ia ja Hit Hinv.
  { rewrite app_nil_r in Hit. subst done. by exists ia, ja. }
  pose proof Hkeys as HF. rewrite Hit in HF. apply Forall_app in HF as [_ HF].
  apply Forall_cons_1 in HF as [Hk _]. simpl in Hk.
  destruct Hinv as (Hli & Hlj & Hia & Hja).
  assert (Hck : c k = length (row_of done k) + S (length (row_of rest k))).
  { unfold c. rewrite Hit, row_of_app, app_length.
    change ((k, v) :: rest) with ([(k, v)] ++ rest). rewrite row_of_app, app_length.
    rewrite row_of_single, decide_True by done. simpl. lia. }
  assert (Hofk : off k + length (row_of done k) < off (S k)) by (rewrite off_S by lia; lia).
  assert (Hofm : off (S k) ≤ off m) by (apply off_mono; lia).
  simpl. unfold push_one. cbn [fst snd]. rewrite (Hia k Hk). cbn [mbind option_bind].
  rewrite upd_Some by lia. cbn [mbind option_bind]. rewrite upd_Some by lia. cbn [mbind option_bind].
  destruct (IH (done ++ [(k, v)]) (<[S k:=S (off k + length (row_of done k))]> ia)
               (<[off k + length (row_of done k):=v]> ja))
    as (ia' & ja' & Hp & H0 & Hinv').
  - by rewrite <- app_assoc.
  - split_and!.
    + by rewrite insert_length.
    + by rewrite insert_length.
    + intros i Hi. rewrite row_of_app, app_length, row_of_single.
      destruct (decide (k = i)) as [->|Hne]; simpl.
      * rewrite list_lookup_insert by lia. f_equal. lia.
      * rewrite list_lookup_insert_ne by lia. rewrite Hia by lia. f_equal. lia.
    + intros i t Hi. rewrite row_of_app, app_length, row_of_single.
      destruct (decide (k = i)) as [->|Hne]; simpl; intros Ht.
      * destruct (decide (t = length (row_of done i))) as [->|Hnt].
        -- rewrite list_lookup_insert by lia. rewrite lookup_app_r by lia.
           by rewrite Nat.sub_diag.
        -- rewrite list_lookup_insert_ne by lia. rewrite Hja by lia.
           by rewrite lookup_app_l by lia.
      * rewrite app_nil_r. rewrite list_lookup_insert_ne; [apply Hja; lia|].
        assert (length (row_of done i) ≤ c i).
        { unfold c. rewrite Hit, row_of_app, app_length. lia. }
        assert (off (S i) = off i + c i) by (apply off_S; lia).
        destruct (decide (i < k)).
        -- assert (off (S i) ≤ off k) by (apply off_mono; lia). lia.
        -- assert (off (S k) ≤ off i) by (apply off_mono; lia). lia.
  - exists ia', ja'. split_and!; [done| |done].
    rewrite H0. by rewrite list_lookup_insert_ne by lia.
Qed.

Lemma off_starts n a k :
  k + n = m → ∀ i, i ≤ n → a = off k →
  starts a (row_of items <$> seq k n) !! i = Some (off (k + i)).
Proof.
  revert a k. induction n as [|n IH]; intros a k Hk i Hi ->; simpl.
  - assert (i = 0) as -> by lia. simpl. by rewrite Nat.add_0_r.
  - destruct i as [|i]; simpl; [by rewrite Nat.add_0_r|].
    rewrite (IH _ (S k)); [f_equal; f_equal; lia|lia|lia|].
    rewrite off_S by lia. done.
Qed.

Lemma starts_length a rows : length (starts a rows) = S (length rows).
Proof. revert a. induction rows; intros; simpl; auto. Qed.

Lemma concat_lookup_off n k j t :
  k + n ≤ m → j < n → t < length (row_of items (k + j)) →
  concat (row_of items <$> seq k n) !! (off (k + j) - off k + t) = row_of items (k + j) !! t.
Proof.
  revert k j. induction n as [|n IH]; intros k j Hk Hj Ht; [lia|].
  simpl. destruct j as [|j].
  - rewrite Nat.add_0_r in *. rewrite lookup_app_l by lia. f_equal. lia.
  - assert (off (S k) = off k + c k) by (apply off_S; lia).
    assert (off (S k) ≤ off (k + S j)) by (apply off_mono; lia).
    rewrite lookup_app_r by (fold (c k); lia).
    replace (k + S j) with (S k + j) in * by lia.
    rewrite <- (IH (S k) j) by (try lia; done). f_equal. unfold c in *. lia.
Qed.

Lemma concat_rows_length : length (concat (rows_of m items)) = off m.
Proof.
  unfold off, rows_of, cs. rewrite take_ge by (rewrite fmap_length, seq_length; lia).
  clear off cs. induction (seq 0 m) as [|x l IH]; [done|].
  rewrite !fmap_cons. cbn [concat sum_list sum_list_with]. rewrite app_length, IH. done.
Qed.

Lemma off_total : off m = length items.
Proof.
  unfold off, cs. rewrite take_ge by (rewrite fmap_length, seq_length; lia).
  unfold c, row_of. clear c cs off.
  induction items as [|[k v] l IH].
  - assert (∀ n a, sum_list ((λ i, length ((filter (λ kv : nat * nat, kv.1 = i) []).*2)) <$> seq a n) = 0) as E.
    { induction n; intros; simpl; [done|]. apply IHn. }
    apply E.
  - apply Forall_cons_1 in Hkeys as [Hk Hl]. simpl in Hk.
    specialize (IH Hl). cbn [length]. rewrite <- IH. clear IH.
    assert (E : ∀ n a, sum_list ((λ i, length ((filter (λ kv : nat * nat, kv.1 = i) ((k, v) :: l)).*2)) <$> seq a n)
       = (if decide (a ≤ k ∧ k < a + n) then 1 else 0)
         + sum_list ((λ i, length ((filter (λ kv : nat * nat, kv.1 = i) l).*2)) <$> seq a n)).
    { clear. induction n as [|n IH]; intros a; cbn [seq fmap list_fmap sum_list sum_list_with].
      - rewrite decide_False by lia. done.
      - rewrite IH. rewrite filter_cons. cbn [fst]. unfold id.
        rewrite !fmap_length.
        destruct (decide (k = a)) as [->|Hne]; cbn [length].
        + rewrite decide_False by lia. rewrite decide_True by lia. lia.
        + destruct (decide (S a ≤ k ∧ k < S a + n)).
          * rewrite decide_True by lia. lia.
          * rewrite decide_False by lia. lia. }
    rewrite E, decide_True by lia. done.
Qed.

Lemma pinv_final ia ja :
  pinv items ia ja →
  (∃ a, ia = a :: tail (starts 0 (rows_of m items))) ∧ ja = concat (rows_of m items).
Proof.
  intros (Hli & Hlj & Hia & Hja). split.
  - destruct ia as [|a ia]; [done|]. exists a. f_equal. simpl in Hli.
    apply list_eq. intros i.
    assert (Hs : ∀ i, starts 0 (rows_of m items) !! S i = tail (starts 0 (rows_of m items)) !! i).
    { intros j. by destruct (starts 0 (rows_of m items)). }
    rewrite <- Hs. destruct (decide (i < m)).
    + specialize (Hia i ltac:(lia)). simpl in Hia. rewrite Hia.
      unfold rows_of. rewrite (off_starts m 0 0); [|lia|lia|done].
      simpl. rewrite off_S by lia. done.
    + rewrite !lookup_ge_None_2; [done| |lia].
      rewrite starts_length. unfold rows_of. rewrite fmap_length, seq_length. lia.
  - apply list_eq. intros p.
    destruct (decide (p < off m)) as [Hp|Hp].
    2:{ rewrite !lookup_ge_None_2; [done|rewrite concat_rows_length; lia|lia]. }
    (* find the row containing p *)
    assert (∃ i t, i < m ∧ t < c i ∧ p = off i + t) as (i & t & Hi & Ht & ->).
    { assert (G : ∀ n, n ≤ m → p < off n → ∃ i t, i < n ∧ t < c i ∧ p = off i + t).
      { induction n as [|n IH]; intros Hn Hpn.
        - unfold off in Hpn. simpl in Hpn. lia.
        - destruct (decide (p < off n)) as [Hlt|Hge].
          + destruct (IH ltac:(lia) Hlt) as (i & t & ? & ? & ?). exists i, t. split_and!; lia.
          + exists n, (p - off n). rewrite off_S in Hpn by lia. split_and!; lia. }
      destruct (G m ltac:(lia) Hp) as (i & t & ? & ? & ?). by exists i, t. }
    rewrite Hja by done. unfold rows_of.
    pose proof (concat_lookup_off m 0 i t ltac:(lia) Hi Ht) as E. simpl in E. rewrite <- E.
    f_equal. unfold off. simpl. lia.
Qed.

(** The push-back phase, started from the scanned counts, ends with exactly the
    wanted structure (apart from entry 0 of ia, which the callers reset). *)
Lemma push_all_correct a ja0 :
  length ja0 = length items →
  push_all (a :: offs 0 cs, ja0) items
  = Some (a :: tail (starts 0 (rows_of m items)), concat (rows_of m items)).
Proof.
  intros Hl.
  destruct (push_all_inv [] items (a :: offs 0 cs) ja0) as (ia' & ja' & Hp & H0 & Hinv).
  - done.
  - split_and!.
    + simpl. rewrite offs_length. unfold cs. by rewrite fmap_length, seq_length.
    + by rewrite off_total.
    + intros i Hi. simpl. rewrite offs_lookup by (unfold cs; rewrite fmap_length, seq_length; lia).
      simpl. f_equal. unfold off. lia.
    + intros i t Hi Ht. simpl in Ht. lia.
  - rewrite Hp. apply pinv_final in Hinv as [[b ->] ->]. simpl in H0. by simplify_eq.
Qed.
End push.

(** ** From counts to scanned pointers *)

Lemma cnt_row_of items i : cnt items.*1 i = length (row_of items i).
Proof.
  unfold cnt, row_of. rewrite fmap_length.
  induction items as [|[k v] l IH]; [done|].
  rewrite fmap_cons, !filter_cons. simpl.
  destruct (decide (k = i)); simpl; auto.
Qed.

(** Counting the keys of [items], scanning, and pushing [items]. *)
Lemma count_scan m ks items :
  Forall (λ k, k < m) ks → ks ≡ₚ items.*1 →
  ∃ ia, count_all (replicate (m + 1) 0) ks = Some ia ∧
    ia = 0 :: ((λ i, length (row_of items i)) <$> seq 0 m).
Proof.
  intros Hf Hp.
  destruct (count_all_Some (replicate (m + 1) 0) ks m) as (ia & -> & Hl & H0 & H).
  { rewrite replicate_length. lia. } { done. }
  exists ia. split; [done|].
  destruct ia as [|a ia]; [done|]. simpl in Hl.
  rewrite lookup_replicate_2 in H0 by lia. simpl in H0.
  assert (a = 0) as -> by congruence. f_equal.
  apply list_eq. intros i. destruct (decide (i < m)).
  - specialize (H i 0). rewrite lookup_replicate_2 in H by lia. specialize (H eq_refl).
    simpl in H. rewrite H. rewrite list_lookup_fmap, lookup_seq_lt by lia. simpl.
    rewrite <- cnt_row_of. unfold cnt. by rewrite Hp.
  - rewrite !lookup_ge_None_2; [done| |lia]. rewrite fmap_length, seq_length. lia.
Qed.

Lemma sum_counts m items :
  Forall (λ kv, kv.1 < m) items →
  sum_list ((λ i, length (row_of items i)) <$> seq 0 m) = length items.
Proof.
  intros Hf. rewrite <- (off_total m items Hf).
  rewrite take_ge by (rewrite fmap_length, seq_length; lia). done.
Qed.

(** ** The result read back row by row *)

Lemma starts_length' a rows : length (starts a rows) = S (length rows).
Proof. revert a. induction rows; intros; simpl; auto. Qed.

Lemma starts_rows a pre rows i r :
  a = length pre → rows !! i = Some r →
  ∃ b, starts a rows !! i = Some b ∧ starts a rows !! S i = Some (b + length r) ∧
    slice (pre ++ concat rows) b (length r) = Some r ∧ b + length r ≤ length pre + length (concat rows).
Proof.
  revert a pre i. induction rows as [|r0 rows IH]; intros a pre i -> Hi; [done|].
  destruct i as [|i].
  - simpl in Hi. simplify_eq. exists (length pre). split_and!.
    + done.
    + simpl. destruct rows; simpl; done.
    + apply slice_pointwise; [done|]. intros j Hj. simpl.
      rewrite lookup_app_r by lia. rewrite lookup_app_l by lia. f_equal. lia.
    + simpl. rewrite app_length. lia.
  - simpl in Hi. destruct (IH (length pre + length r0) (pre ++ r0) i) as (b & Hb & Hb' & Hs & Hle);
      [by rewrite app_length|done|].
    exists b. split_and!.
    + done.
    + done.
    + simpl. by rewrite app_assoc.
    + simpl. rewrite app_length in *. lia.
Qed.

Lemma starts_last a rows : starts a rows !! length rows = Some (a + length (concat rows)).
Proof.
  revert a. induction rows as [|r rows IH]; intros a; simpl.
  - f_equal. lia.
  - rewrite IH. f_equal. rewrite app_length. lia.
Qed.

Lemma starts_holds rows : holds_rows (starts 0 rows) (concat rows) rows.
Proof.
  split_and!.
  - apply starts_length'.
  - by destruct rows.
  - apply starts_last.
  - intros i r Hi. destruct (starts_rows 0 [] rows i r eq_refl Hi) as (b & Hb & He & Hs & _).
    exists b, (b + length r). split_and!; [done|done|lia|].
    by replace (b + length r - b) with (length r) by lia.
Qed.

Lemma starts_same_lengths a rows rows' :
  length <$> rows = length <$> rows' → starts a rows = starts a rows'.
Proof.
  revert a rows'. induction rows as [|r rows IH]; intros a [|r' rows'] H; try done.
  rewrite !fmap_cons in H. simplify_eq. simpl. f_equal. rewrite <- (IH _ rows'); [|done]. by f_equal; f_equal.
Qed.

(** ** Sorting the rows *)
Section sorting.
Variable qsort : list nat → list nat.
Hypothesis qsort_perm : ∀ l, qsort l ≡ₚ l.

Lemma sort_loop_correct all rows pre k :
  all = drop k rows ++ [] → k ≤ length rows →
  length pre = length (concat (take k rows)) →
  sort_loop qsort (length rows - k) k (starts 0 rows) (pre ++ concat (drop k rows))
  = Some (pre ++ concat (qsort <$> drop k rows)).
Proof.
  intros _. remember (length rows - k) as n eqn:Hn. revert k pre Hn.
  induction n as [|n IH]; intros k pre Hn Hk Hpre.
  - simpl. rewrite drop_ge by lia. done.
  - destruct (lookup_lt_is_Some_2 rows k) as [r Hr]; [lia|].
    destruct (starts_rows 0 [] rows k r eq_refl Hr) as (b & Hb & He & Hs & Hle).
    assert (Hb0 : b = length pre).
    { clear -Hb Hpre Hr Hk. rewrite Hpre. clear Hpre pre.
      assert (G : ∀ a, starts a rows !! k = Some (a + length (concat (take k rows)))).
      { clear Hb b. revert rows Hr Hk. induction k as [|k IH]; intros rows Hr Hk a.
        - destruct rows; simpl; f_equal; lia.
        - destruct rows as [|r0 rows]; [done|]. simpl in *. rewrite IH by (done || lia).
          f_equal. rewrite app_length. lia. }
      rewrite G in Hb. simplify_eq. lia. }
    cbn [sort_loop]. rewrite Hb, He. cbn [mbind option_bind]. rewrite decide_True by lia.
    replace (b + length r - b) with (length r) by lia.
    rewrite (drop_S _ _ _ Hr). cbn [concat].
    rewrite (slice_pointwise _ r).
    2:{ done. }
    2:{ intros i Hi. rewrite lookup_app_r by lia. rewrite lookup_app_l by lia. f_equal. lia. }
    cbn [mbind option_bind].
    assert (Hq : length (qsort r) = length r) by (by rewrite qsort_perm).
    rewrite memcpy_Some by (rewrite !app_length; lia). cbn [mbind option_bind].
    rewrite take_app_le, take_ge by lia.
    replace (drop (b + length (qsort r)) (pre ++ r ++ concat (drop (S k) rows)))
      with (concat (drop (S k) rows)).
    2:{ rewrite app_assoc, drop_app_alt; [done|]. rewrite app_length. lia. }
    rewrite app_assoc.
    rewrite (IH (S k) (pre ++ qsort r)); [|lia|lia|].
    + rewrite fmap_cons. simpl. by rewrite <- app_assoc.
    + rewrite app_length, Hq, Hpre, (take_S_r _ _ r) by done.
      rewrite concat_app, app_length. simpl. rewrite app_nil_r. done.
Qed.

Lemma sort_rows_correct rows :
  sort_loop qsort (length rows) 0 (starts 0 rows) (concat rows) = Some (concat (qsort <$> rows)).
Proof.
  pose proof (sort_loop_correct (rows ++ []) rows [] 0) as H. rewrite drop_0, Nat.sub_0_r in H.
  by apply H; [|lia|].
Qed.

Lemma starts_sorted rows : starts 0 (qsort <$> rows) = starts 0 rows.
Proof.
  apply starts_same_lengths. rewrite <- list_fmap_compose. apply list_fmap_ext.
  intros i x _. simpl. by rewrite qsort_perm.
Qed.
End sorting.

(** ** Further facts used by the property file *)

Lemma starts_take a rows k :
  k ≤ length rows → starts a rows !! k = Some (a + length (concat (take k rows))).
Proof.
  revert rows a. induction k as [|k IH]; intros rows a Hk.
  - destruct rows; simpl; f_equal; lia.
  - destruct rows as [|r0 rows]; simpl in *; [lia|]. rewrite IH by lia.
    f_equal. rewrite app_length. lia.
Qed.

(** The row-wise description determines both arrays. *)
Lemma holds_rows_unique ia ja rows :
  holds_rows ia ja rows → ia = starts 0 rows ∧ ja = concat rows.
Proof.
  intros (Hl & H0 & He & Hr).
  assert (G : ∀ k, k ≤ length rows → ia !! k = Some (length (concat (take k rows))) ∧
                take (length (concat (take k rows))) ja = concat (take k rows)).
  { induction k as [|k IH]; intros Hk.
    - simpl. done.
    - destruct (IH ltac:(lia)) as [IH1 IH2].
      destruct (lookup_lt_is_Some_2 rows k) as [r Hrk]; [lia|].
      destruct (Hr k r Hrk) as (b & e & Hb & He' & Hle & Hs).
      rewrite (take_S_r _ _ r Hrk), concat_app. cbn [concat]. rewrite app_nil_r, app_length.
      assert (b = length (concat (take k rows))) as -> by congruence.
      pose proof (slice_length _ _ _ _ Hs) as Hlen.
      split; [rewrite He'; f_equal; lia|].
      rewrite Hlen. set (n := length (concat (take k rows))) in *.
      rewrite <- IH2.
      apply list_eq. intros i. destruct (decide (i < n)).
      + rewrite lookup_take by lia.
        assert (n ≤ length ja) as Hn.
        { destruct (decide (n ≤ length ja)); [done|].
          pose proof (f_equal length IH2) as E. rewrite take_length in E. fold n in E. lia. }
        rewrite lookup_app_l by (rewrite take_length; lia). by rewrite lookup_take by lia.
      + assert (n ≤ length ja) as Hn.
        { pose proof (f_equal length IH2) as E. rewrite take_length in E. fold n in E. lia. }
        rewrite (lookup_app_r (take n ja)) by (rewrite take_length; lia).
        rewrite take_length, Nat.min_l by lia.
        destruct (decide (i < n + (e - n))).
        * rewrite lookup_take by lia.
          pose proof (slice_lookup _ _ _ _ (i - n) Hs ltac:(lia)) as E.
          replace (n + (i - n)) with i in E by lia. done.
        * rewrite lookup_take_ge by lia. rewrite lookup_ge_None_2 by lia. done. }
  split.
  - apply list_eq. intros i. destruct (decide (i ≤ length rows)).
    + rewrite starts_take by lia. simpl. by apply G.
    + rewrite !lookup_ge_None_2; [done|rewrite starts_length'; lia|lia].
  - destruct (G (length rows)) as [G1 G2]; [lia|].
    rewrite take_ge with (l:=rows) in G1, G2 by lia.
    assert (length (concat rows) = length ja) as E by congruence.
    rewrite E, take_ge in G2 by lia. done.
Qed.

Lemma count_all_app ia k1 k2 :
  count_all ia (k1 ++ k2) = (ia ← count_all ia k1; count_all ia k2).
Proof.
  revert ia. induction k1 as [|k k1 IH]; intros ia; simpl; [done|].
  destruct (count_one ia k); simpl; [apply IH|done].
Qed.
Lemma push_all_app s k1 k2 :
  push_all s (k1 ++ k2) = (s ← push_all s k1; push_all s k2).
Proof.
  revert s. induction k1 as [|k k1 IH]; intros s; simpl; [done|].
  destruct (push_one s k); simpl; [apply IH|done].
Qed.
