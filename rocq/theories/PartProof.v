(** Lemmas about the partition functions. *)
From Verif Require Import Base CsrModel CsrSpec CsrProof PartModel.

(** ** Maximum *)
Lemma max_block_gen p m :
  (m ≤ foldl (λ m x, if decide (m > Z.of_nat x)%Z then m else Z.of_nat x) m p)%Z ∧
  Forall (λ x, (Z.of_nat x ≤ foldl (λ m x, if decide (m > Z.of_nat x)%Z then m else Z.of_nat x) m p)%Z) p ∧
  (foldl (λ m x, if decide (m > Z.of_nat x)%Z then m else Z.of_nat x) m p = m ∨
   ∃ x, x ∈ p ∧ foldl (λ m x, if decide (m > Z.of_nat x)%Z then m else Z.of_nat x) m p = Z.of_nat x).
Proof.
  revert m. induction p as [|x p IH]; intros m; cbn [foldl].
  - split_and!; [lia|by constructor|by left].
  - destruct (IH (if decide (m > Z.of_nat x)%Z then m else Z.of_nat x)) as (H1 & H2 & H3).
    split_and!.
    + destruct (decide (m > Z.of_nat x)%Z); lia.
    + constructor; [|done]. destruct (decide (m > Z.of_nat x)%Z); lia.
    + destruct H3 as [H3|(y & Hy & H3)].
      * rewrite H3. destruct (decide (m > Z.of_nat x)%Z); [by left|].
        right. exists x. split; [left|done].
      * right. exists y. split; [by right|done].
Qed.

Lemma max_block_ge p : (-1 ≤ max_block p)%Z.
Proof. apply (max_block_gen p (-1)). Qed.
Lemma max_block_bound p : Forall (λ x, (Z.of_nat x ≤ max_block p)%Z) p.
Proof. apply (max_block_gen p (-1)). Qed.
Lemma max_block_in p : p ≠ [] → ∃ x, x ∈ p ∧ max_block p = Z.of_nat x.
Proof.
  intros Hp. destruct (max_block_gen p (-1)) as (_ & Hf & [H|H]); [|done].
  exfalso. destruct p as [|x p]; [done|]. apply Forall_cons_1 in Hf as [Hx _].
  unfold max_block in *. rewrite H in Hx. lia.
Qed.
Lemma max_block_lt p : Forall (λ x, x < Z.to_nat (max_block p + 1)) p.
Proof.
  eapply Forall_impl; [apply max_block_bound|]. simpl. intros x Hx. lia.
Qed.

(** ** Compression *)
Definition occ (p : list nat) (b : nat) : nat := length (filter (λ x, x = b) p).
(** Number of occupied blocks below [b]. *)
Fixpoint used (p : list nat) (b : nat) : nat :=
  match b with 0 => 0 | S b => used p b + (if decide (b ∈ p) then 1 else 0) end.

Lemma used_mono p a b : a ≤ b → used p a ≤ used p b.
Proof. induction 1; simpl; [done|lia]. Qed.
Lemma used_lt p a b : a < b → a ∈ p → used p a < used p b.
Proof.
  intros Hab Ha. assert (used p (S a) ≤ used p b) by (by apply used_mono).
  simpl in *. rewrite decide_True in * by done. lia.
Qed.

Lemma compr_count_Some compr p n :
  length compr = n → Forall (λ b, b < n) p →
  ∃ c', compr_count compr p = Some c' ∧ length c' = n ∧
    ∀ b x, compr !! b = Some x → c' !! b = Some (x + Z.of_nat (occ p b))%Z.
Proof.
  revert compr. induction p as [|k p IH]; intros c Hl Hf; simpl.
  - exists c. split_and!; [done|done|]. intros b x ->. unfold occ. simpl. f_equal. lia.
  - apply Forall_cons_1 in Hf as [Hk Hf].
    destruct (lookup_lt_is_Some_2 c k) as [x Hx]; [lia|]. rewrite Hx. cbn [mbind option_bind].
    rewrite upd_Some by lia. cbn [mbind option_bind].
    destruct (IH (<[k:=(x + 1)%Z]> c)) as (c' & -> & Hl' & H); [by rewrite insert_length|done|].
    exists c'. split_and!; [done|done|]. intros b y Hy. unfold occ. rewrite filter_cons.
    destruct (decide (k = b)) as [->|Hne].
    + assert (x = y) as -> by congruence.
      rewrite (H b (y + 1)%Z) by (apply list_lookup_insert; lia). f_equal. simpl. unfold occ. lia.
    + rewrite (H b y) by (by rewrite list_lookup_insert_ne by lia). done.
Qed.

Lemma occ_pos p b : 0 < occ p b ↔ b ∈ p.
Proof.
  unfold occ. split.
  - intros H. destruct (filter (λ x, x = b) p) as [|y l] eqn:E; simpl in H; [lia|].
    assert (y ∈ filter (λ x, x = b) p) as Hy by (rewrite E; left).
    apply elem_of_list_filter in Hy as [-> ?]. done.
  - intros H. destruct (filter (λ x, x = b) p) as [|y l] eqn:E; [|simpl; lia].
    assert (b ∈ filter (λ x, x = b) p) as Hy by (by apply elem_of_list_filter).
    rewrite E in Hy. by apply elem_of_nil in Hy.
Qed.

Lemma compr_scan_Some p compr n i :
  0 < i → i + n = length compr →
  (∀ b, b < i → compr !! b = Some (Z.of_nat (used p (S b)) - 1)%Z) →
  (∀ b, i ≤ b → b < i + n → compr !! b = Some (Z.of_nat (occ p b))) →
  ∃ c', compr_scan n i compr = Some c' ∧ length c' = length compr ∧
    ∀ b, b < i + n → c' !! b = Some (Z.of_nat (used p (S b)) - 1)%Z.
Proof.
  revert i compr. induction n as [|n IH]; intros i c Hi Hl H1 H2; cbn [compr_scan].
  - exists c. split_and!; [done|done|]. intros b Hb. apply H1. lia.
  - rewrite (H1 (i - 1)) by lia. rewrite (H2 i) by lia. cbn [mbind option_bind].
    rewrite upd_Some by lia. cbn [mbind option_bind].
    destruct (IH (S i) (<[i:=(Z.of_nat (used p (S (i - 1))) - 1 +
         b2z (bool_decide (Z.of_nat (occ p i) > 0)%Z))%Z]> c)) as (c' & -> & Hl' & H).
    + lia.
    + rewrite insert_length. lia.
    + intros b Hb. destruct (decide (b = i)) as [->|Hne].
      * rewrite list_lookup_insert by lia. f_equal.
        replace (S (i - 1)) with i by lia. cbn [used].
        assert (bool_decide (Z.of_nat (occ p i) > 0)%Z = bool_decide (i ∈ p)) as ->.
        { apply bool_decide_ext. rewrite <- occ_pos. lia. }
        unfold b2z. destruct (decide (i ∈ p)); [rewrite bool_decide_true by done|rewrite bool_decide_false by done]; lia.
      * rewrite list_lookup_insert_ne by lia. apply H1. lia.
    + intros b Hb Hb'. rewrite list_lookup_insert_ne by lia. apply H2; lia.
    + exists c'. split_and!; [done|by rewrite insert_length in Hl'|].
      intros b Hb. apply H. lia.
Qed.

Lemma mapM_lookup_Some {A B} (f : A → option B) (g : A → B) l :
  (∀ x, x ∈ l → f x = Some (g x)) → mapM f l = Some (g <$> l).
Proof.
  induction l as [|x l IH]; intros H; [done|]. simpl.
  rewrite (H x) by left. cbn [mbind option_bind].
  rewrite IH; [done|]. intros y Hy. apply H. by right.
Qed.

Lemma compress_Some p o :
  p ≠ [] → (next_alloc o).1 = true →
  compress p o = Some (Z.of_nat (used p (S (Z.to_nat (max_block p)))) - 1,
                       (λ b, Z.of_nat (used p b)) <$> p)%Z.
Proof.
  intros Hp Ho. unfold compress. rewrite decide_True by (destruct p; simpl; [done|lia]).
  rewrite Ho. pose proof (max_block_in p Hp) as (xm & Hxm & Emax).
  pose proof (max_block_lt p) as Hlt.
  destruct (compr_count_Some (replicate (Z.to_nat (max_block p + 1)) 0%Z) p (Z.to_nat (max_block p + 1)))
    as (c1 & -> & Hl1 & H1); [by rewrite replicate_length|done|].
  cbn [mbind option_bind].
  assert (H1' : ∀ b, b < Z.to_nat (max_block p + 1) → c1 !! b = Some (Z.of_nat (occ p b))).
  { intros b Hb. rewrite (H1 b 0%Z); [done|]. rewrite lookup_replicate_2 by lia. done. }
  rewrite (H1' 0) by lia. cbn [mbind option_bind].
  rewrite upd_Some by lia. cbn [mbind option_bind].
  destruct (compr_scan_Some p (<[0:=(-1 + b2z (bool_decide (Z.of_nat (occ p 0) > 0)%Z))%Z]> c1)
      (Z.to_nat (max_block p)) 1) as (c2 & -> & Hl2 & H2).
  - lia.
  - rewrite insert_length. lia.
  - intros b Hb. assert (b = 0) as -> by lia. rewrite list_lookup_insert by lia. f_equal. cbn [used].
    assert (bool_decide (Z.of_nat (occ p 0) > 0)%Z = bool_decide (0 ∈ p)) as ->.
    { apply bool_decide_ext. rewrite <- occ_pos. lia. }
    unfold b2z. destruct (decide (0 ∈ p)); [rewrite bool_decide_true by done|rewrite bool_decide_false by done]; lia.
  - intros b Hb Hb'. rewrite list_lookup_insert_ne by lia. apply H1'. lia.
  - cbn [mbind option_bind]. rewrite insert_length in Hl2.
    rewrite (mapM_lookup_Some _ (λ b, Z.of_nat (used p b))).
    + cbn [mbind option_bind]. rewrite H2 by lia. cbn [mbind option_bind]. done.
    + intros b Hb. rewrite Forall_forall in Hlt. specialize (Hlt b Hb). rewrite H2 by lia.
      f_equal. cbn [used]. rewrite decide_True by done. lia.
Qed.

Lemma used_surj p n k : k < used p n → ∃ b, b < n ∧ b ∈ p ∧ used p b = k.
Proof.
  induction n as [|n IH]; simpl; intros H; [lia|].
  destruct (decide (k < used p n)) as [Hlt|Hge].
  - destruct (IH Hlt) as (b & ? & ? & ?). exists b. split_and!; [lia|done|done].
  - destruct (decide (n ∈ p)); [|lia]. exists n. split_and!; [lia|done|lia].
Qed.

(** ** Inversion *)
Lemma zero_loop_Some n i a :
  i + n ≤ length a →
  zero_loop n i a = Some (take i a ++ replicate n 0 ++ drop (i + n) a).
Proof.
  revert i a. induction n as [|n IH]; intros i a H; simpl.
  - by rewrite Nat.add_0_r, take_drop.
  - rewrite upd_Some by lia. cbn [mbind option_bind]. rewrite IH by (rewrite insert_length; lia).
    f_equal. rewrite drop_insert_gt by lia.
    rewrite (take_S_r _ i 0) by (apply list_lookup_insert; lia).
    rewrite take_insert by lia. rewrite <- app_assoc. simpl. do 2 f_equal.
    do 2 f_equal. lia.
Qed.

Lemma filter_ext_elem {A} (P Q : A → Prop) `{∀ x, Decision (P x)} `{∀ x, Decision (Q x)} (l : list A) :
  (∀ x, x ∈ l → P x ↔ Q x) → filter P l = filter Q l.
Proof.
  induction l as [|x l IH]; intros H1; [done|]. rewrite !filter_cons.
  rewrite IH by (intros y Hy; apply H1; by right).
  pose proof (H1 x ltac:(left)). destruct (decide (P x)), (decide (Q x)); naive_solver.
Qed.

Definition cells_of (p : list nat) (b : nat) : list nat :=
  filter (λ c, p !! c = Some b) (seq 0 (length p)).

Lemma row_of_zip p b k :
  row_of (zip p (seq k (length p))) b = filter (λ c, p !! (c - k) = Some b) (seq k (length p)).
Proof.
  revert k. induction p as [|x p IH]; intros k; [done|]. cbn [length seq zip zip_with].
  unfold row_of in *. rewrite !filter_cons. cbn [fst]. rewrite Nat.sub_diag. cbn [lookup list_lookup].
  assert (E : filter (λ c, (x :: p) !! (c - k) = Some b) (seq (S k) (length p))
       = filter (λ c, p !! (c - S k) = Some b) (seq (S k) (length p))).
  { apply filter_ext_elem. intros c Hc. apply elem_of_seq in Hc.
    replace (c - k) with (S (c - S k)) by lia. done. }
  rewrite E. destruct (decide (x = b)) as [->|Hne].
  - rewrite decide_True by done. rewrite fmap_cons. cbn [snd]. f_equal. apply IH.
  - rewrite decide_False by (intros [= ?]; done). apply IH.
Qed.

Lemma row_of_cells p b : row_of (zip p (seq 0 (length p))) b = cells_of p b.
Proof.
  rewrite row_of_zip. unfold cells_of. apply filter_ext_elem. intros c _. by rewrite Nat.sub_0_r.
Qed.

Lemma fst_zip_seq (p : list nat) : (zip p (seq 0 (length p))).*1 = p.
Proof. apply fst_zip. by rewrite seq_length. Qed.

Lemma invert_Some p pi0 inv0 :
  length pi0 = S (Z.to_nat (max_block p + 1)) → length inv0 = length p →
  invert p pi0 inv0
  = Some (starts 0 (cells_of p <$> seq 0 (Z.to_nat (max_block p + 1))),
          concat (cells_of p <$> seq 0 (Z.to_nat (max_block p + 1)))).
Proof.
  intros Hpi Hinv. unfold invert. set (m := Z.to_nat (max_block p + 1)) in *.
  rewrite zero_loop_Some by lia. cbn [mbind option_bind]. rewrite take_0, drop_ge, app_nil_r by lia. simpl (_ ++ _).
  set (items := zip p (seq 0 (length p))).
  destruct (count_scan m p items) as (ia & -> & ->).
  { apply max_block_lt. } { unfold items. by rewrite fst_zip_seq. }
  cbn [mbind option_bind].
  set (cs := (λ i, length (row_of items i)) <$> seq 0 m).
  assert (Hcs : length cs = m) by (unfold cs; by rewrite fmap_length, seq_length).
  rewrite <- Hcs at 1. rewrite scan_loop_correct. cbn [mbind option_bind].
  assert (Hit : length items = length p) by (unfold items; rewrite zip_with_length, seq_length; lia).
  assert (Hf : Forall (λ kv, kv.1 < m) items).
  { assert (Forall (λ k, k < m) items.*1) as H.
    { unfold items. rewrite fst_zip_seq. apply max_block_lt. }
    by apply Forall_fmap in H. }
  pose proof (push_all_correct m items Hf (sum_list cs) inv0) as HP. fold cs in HP.
  rewrite HP by lia. cbn [mbind option_bind].
  assert (Hrows : rows_of m items = cells_of p <$> seq 0 m).
  { unfold rows_of. apply list_fmap_ext. intros i b _. apply row_of_cells. }
  assert (Ee : (sum_list cs :: tail (starts 0 (rows_of m items))) !! m = Some (length p)).
  { destruct m as [|m'] eqn:Em.
    - assert (p = []) as ->.
      { destruct p as [|x p']; [done|]. pose proof (max_block_lt (x :: p')) as Hx.
        fold m in Hx. rewrite Em in Hx. apply Forall_cons_1 in Hx as [? _]. lia. }
      simpl. done.
    - pose proof (starts_last 0 (rows_of (S m') items)) as E.
      assert (length (rows_of (S m') items) = S m') as El by (unfold rows_of; by rewrite fmap_length, seq_length).
      rewrite El in E.
      rewrite concat_rows_length, off_total in E by done.
      destruct (starts 0 (rows_of (S m') items)) as [|s0 ss]; [done|]. simpl in *. rewrite E. f_equal. done. }
  fold items. rewrite Ee. cbn [mbind option_bind]. rewrite decide_True by done.
  rewrite upd_Some by (simpl; lia). cbn [mbind option_bind]. rewrite <- Hrows. simpl.
  do 2 f_equal. by destruct (rows_of m items).
Qed.

Lemma rows_perm m items :
  concat (rows_of m items) ≡ₚ (filter (λ kv, kv.1 < m) items).*2.
Proof.
  unfold rows_of. induction m as [|m IH].
  - simpl. induction items as [|kv l IHl]; [done|]. rewrite filter_cons, decide_False by lia. done.
  - rewrite seq_S, fmap_app, concat_app, IH. simpl. rewrite app_nil_r. clear IH.
    unfold row_of. rewrite <- fmap_app. apply fmap_Permutation.
    induction items as [|[k v] l IHl]; [done|]. rewrite !filter_cons. cbn [fst].
    destruct (decide (k < m)).
    + rewrite decide_False by lia. rewrite decide_True by lia. simpl. by rewrite IHl.
    + destruct (decide (k = m)).
      * rewrite decide_True by lia. rewrite <- Permutation_middle. by rewrite IHl.
      * rewrite decide_False by lia. done.
Qed.

Lemma invert_perm p :
  concat (cells_of p <$> seq 0 (Z.to_nat (max_block p + 1))) ≡ₚ seq 0 (length p).
Proof.
  set (m := Z.to_nat (max_block p + 1)). set (items := zip p (seq 0 (length p))).
  assert (Hrows : rows_of m items = cells_of p <$> seq 0 m).
  { unfold rows_of. apply list_fmap_ext. intros i b _. apply row_of_cells. }
  rewrite <- Hrows, rows_perm.
  assert (Hf : Forall (λ kv, kv.1 < m) items).
  { assert (Forall (λ k, k < m) items.*1) as H.
    { unfold items. rewrite fst_zip_seq. apply max_block_lt. }
    by apply Forall_fmap in H. }
  assert (filter (λ kv : nat * nat, kv.1 < m) items = items) as ->.
  { clearbody items. clear Hrows. induction items as [|kv l IH]; [done|]. apply Forall_cons_1 in Hf as [? ?].
    rewrite filter_cons, decide_True by done. by rewrite IH. }
  unfold items. rewrite snd_zip; [done|]. by rewrite seq_length.
Qed.

(** ** Local numbering *)
Lemma localidx_block_Some inverse b0 r k loc :
  (∀ t, t < length r → inverse !! (b0 + k + t) = r !! t) →
  Forall (λ c, c < length loc) r → NoDup r →
  ∃ loc', localidx_block (length r) (b0 + k) b0 inverse loc = Some loc' ∧
    length loc' = length loc ∧
    (∀ t c, r !! t = Some c → loc' !! c = Some (k + t)) ∧
    (∀ c, c ∉ r → loc' !! c = loc !! c).
Proof.
  revert k loc. induction r as [|c r IH]; intros k loc Hi Hf Hnd; cbn [localidx_block length].
  - exists loc. split_and!; try done.
  - apply Forall_cons_1 in Hf as [Hc Hf]. apply NoDup_cons in Hnd as [Hnc Hnd].
    pose proof (Hi 0 ltac:(simpl; lia)) as E. rewrite Nat.add_0_r in E. rewrite E. cbn [lookup list_lookup mbind option_bind].
    rewrite upd_Some by lia. cbn [mbind option_bind].
    destruct (IH (S k) (<[c:=b0 + k - b0]> loc)) as (loc' & E' & Hl & H1 & H2).
    + intros t Ht. specialize (Hi (S t) ltac:(simpl; lia)). simpl in Hi. rewrite <- Hi. f_equal. lia.
    + by rewrite insert_length.
    + done.
    + replace (S (b0 + k)) with (b0 + S k) by lia. exists loc'.
      split_and!; [done|by rewrite Hl, insert_length| |].
      * intros [|t] c' Ht; simpl in Ht.
        -- simplify_eq. rewrite H2 by done. rewrite list_lookup_insert by done. f_equal. lia.
        -- rewrite (H1 _ _ Ht). f_equal. lia.
      * intros c' Hc'. apply not_elem_of_cons in Hc' as [? ?]. rewrite H2 by done.
        by rewrite list_lookup_insert_ne by done.
Qed.

Lemma localidx_loop_Some (p pi inverse : list nat) rows n b loc :
  holds_rows pi inverse rows → b + n = length rows →
  (∀ b r c, rows !! b = Some r → c ∈ r → p !! c = Some b) →
  (∀ b r, rows !! b = Some r → NoDup r) → length loc = length p →
  ∃ loc', localidx_loop n b pi inverse loc = Some loc' ∧ length loc' = length p ∧
    (∀ b' r t c, b ≤ b' → rows !! b' = Some r → r !! t = Some c → loc' !! c = Some t) ∧
    (∀ c b', p !! c = Some b' → b' < b → loc' !! c = loc !! c).
Proof.
  intros Hh. revert b loc. induction n as [|n IH]; intros b loc Hb Hp Hnd Hl; cbn [localidx_loop].
  - exists loc. split_and!; try done. intros b' r t c Hle Hr _.
    apply lookup_lt_Some in Hr. lia.
  - destruct (lookup_lt_is_Some_2 rows b) as [r Hr]; [lia|].
    destruct Hh as (Hh1 & Hh2 & Hh3 & Hh).
    destruct (Hh b r Hr) as (s & e & Es & Ee & Hle & Hs). rewrite Es, Ee. cbn [mbind option_bind].
    pose proof (slice_length _ _ _ _ Hs) as Hlen. rewrite <- Hlen.
    destruct (localidx_block_Some inverse s r 0 loc) as (loc1 & E1 & Hl1 & H1 & H2).
    + intros t Ht. rewrite Nat.add_0_r. rewrite (slice_lookup _ _ _ _ t Hs) by lia. done.
    + apply Forall_forall. intros c Hc. specialize (Hp b r c Hr Hc).
      apply lookup_lt_Some in Hp. lia.
    + by eapply Hnd.
    + rewrite Nat.add_0_r in E1. rewrite E1. cbn [mbind option_bind].
      destruct (IH (S b) loc1) as (loc' & E' & Hl' & H1' & H2').
      * lia. * done. * done. * lia.
      * exists loc'. split_and!; [done|done| |].
        -- intros b' r' t c Hle' Hr' Ht. destruct (decide (b' = b)) as [->|Hne].
           ++ assert (r' = r) as -> by congruence.
              rewrite (H2' c b); [by apply H1| |lia].
              eapply Hp; [done|]. by eapply elem_of_list_lookup_2.
           ++ eapply (H1' b'); [lia|done|done].
        -- intros c b' Hc Hlt. rewrite (H2' c b') by (done || lia).
           apply H2. intros Hin. specialize (Hp b r c Hr Hin). simplify_eq. lia.
Qed.

(** ** Uniform partition *)
Local Open Scope Z_scope.

(** First fine index of block [b]. *)
Definition bstart (size nbins b : Z) : Z := b * (size / nbins) + Z.min b (size mod nbins).

Lemma lin_dist_Some size nbins idx :
  0 < nbins ≤ size → 0 ≤ idx < size →
  ∃ b, lin_dist size nbins idx = Some b ∧ 0 ≤ b < nbins ∧
    bstart size nbins b ≤ idx < bstart size nbins (b + 1).
Proof.
  intros Hn Hi. unfold lin_dist, c_div, c_mod.
  rewrite decide_False by lia. cbn [mbind option_bind].
  rewrite decide_False by lia. cbn [mbind option_bind].
  rewrite Z.quot_div_nonneg, Z.rem_mod_nonneg by lia.
  unfold bstart. set (L := size / nbins). set (R := size mod nbins).
  assert (HL : 1 ≤ L) by (unfold L; apply Z.div_le_lower_bound; lia).
  assert (HR : 0 ≤ R < nbins) by (unfold R; apply Z.mod_pos_bound; lia).
  assert (Hs : size = nbins * L + R) by (unfold L, R; apply Z.div_mod; lia).
  rewrite decide_False by lia. cbn [mbind option_bind].
  rewrite decide_False by lia. cbn [mbind option_bind].
  rewrite (Z.quot_div_nonneg idx) by lia.
  eexists. split; [reflexivity|].
  clearbody L R. subst size.
  destruct (Z.le_gt_cases (R * (L + 1)) idx) as [Hge|Hlt].
  - (* b2 decides *)
    rewrite (Z.quot_div_nonneg (idx - R)) by nia.
    set (t := idx - R * (L + 1)) in *.
    assert (E2 : (idx - R) / L = R + t / L).
    { replace (idx - R) with (t + R * L) by (unfold t; ring). rewrite Z.div_add by lia. lia. }
    assert (E1 : idx / (L + 1) = R + t / (L + 1)).
    { replace idx with (t + R * (L + 1)) at 1 by (unfold t; ring). rewrite Z.div_add by lia. lia. }
    assert (t / (L + 1) ≤ t / L) by (apply Z.div_le_compat_l; lia).
    rewrite decide_False by lia. rewrite E2.
    pose proof (Z.div_mod t L ltac:(lia)) as D. pose proof (Z.mod_pos_bound t L ltac:(lia)) as M.
    assert (0 ≤ t / L) by (apply Z.div_pos; lia).
    assert (t / L < nbins - R).
    { apply Z.div_lt_upper_bound; [lia|]. unfold t. nia. }
    set (q := t / L) in *. set (r := t mod L) in *.
    assert (idx = R * (L + 1) + L * q + r) by (unfold t in *; lia).
    rewrite !Z.min_r by lia. split; nia.
  - (* b1 decides *)
    pose proof (Z.div_mod idx (L + 1) ltac:(lia)) as D. pose proof (Z.mod_pos_bound idx (L + 1) ltac:(lia)) as M.
    set (q := idx / (L + 1)) in *. set (r := idx mod (L + 1)) in *.
    assert (0 ≤ q) by (apply Z.div_pos; lia).
    assert (q < R) by nia.
    assert (Z.quot (idx - R) L ≤ q).
    { destruct (Z.le_gt_cases R idx) as [Hri|Hri].
      - rewrite Z.quot_div_nonneg by lia. apply Z.lt_succ_r.
        apply Z.div_lt_upper_bound; [lia|]. nia.
      - assert (Z.quot (idx - R) L ≤ 0); [|lia].
        rewrite <- (Z.quot_0_l L) by lia. apply Z.quot_le_mono; lia. }
    assert ((if decide (q > Z.quot (idx - R) L) then q else Z.quot (idx - R) L) = q) as ->.
    { destruct (decide (q > Z.quot (idx - R) L)); lia. }
    rewrite !Z.min_l by lia. split; nia.
Qed.

Lemma bstart_mono size nbins a b :
  0 < nbins ≤ size → a ≤ b → bstart size nbins a ≤ bstart size nbins b.
Proof.
  intros Hn Hab. unfold bstart.
  assert (1 ≤ size / nbins) by (apply Z.div_le_lower_bound; lia).
  pose proof (Z.mod_pos_bound size nbins ltac:(lia)). nia.
Qed.
