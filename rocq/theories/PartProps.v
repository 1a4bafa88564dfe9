(** C07, C08, C09: inversion, uniform construction and compression of
    partitions. *)
From Verif Require Import Base CsrModel CsrSpec CsrProof PartModel PartProof.

(** ** C07 *)

(** Specification: the cells of block [b] in increasing order
    ([PartProof.cells_of] is this very filter). *)
Definition block_cells (p : list nat) (b : nat) : list nat :=
  filter (λ c, p !! c = Some b) (seq 0 (length p)).

(** partition_invert on arrays of the size partition_allocate_inverse gives it:
    segment [b] of the result holds the cells of block [b] in increasing order,
    and every cell occurs exactly once. *)
Theorem C07_invert p pi0 inv0 nb :
  nb = Z.to_nat (max_block p + 1) → length pi0 = S nb → length inv0 = length p →
  ∃ pi inv, invert p pi0 inv0 = Some (pi, inv) ∧
    holds_rows pi inv (block_cells p <$> seq 0 nb) ∧ inv ≡ₚ seq 0 (length p).
Proof.
  intros -> Hpi Hinv. rewrite invert_Some by done. eexists _, _. split_and!; [done| |].
  - apply starts_holds.
  - apply invert_perm.
Qed.
Print Assumptions C07_invert.

(** The number of blocks used there is right: every block number occurring in
    p is below it, and the largest one occurs. *)
Theorem C07_block_count p :
  Forall (λ b, b < Z.to_nat (max_block p + 1)) p ∧
  (p ≠ [] → (Z.to_nat (max_block p + 1) - 1) ∈ p).
Proof.
  split; [apply max_block_lt|]. intros Hp. destruct (max_block_in p Hp) as (x & Hx & ->).
  by replace (Z.to_nat (Z.of_nat x + 1) - 1)%nat with x by lia.
Qed.

Lemma cells_lookup_block p nb b r :
  (block_cells p <$> seq 0 nb) !! b = Some r → r = block_cells p b.
Proof.
  intros H. rewrite list_lookup_fmap in H.
  destruct (seq 0 nb !! b) as [b'|] eqn:E; [|done]. apply lookup_seq in E as [-> ?].
  by simplify_eq/=.
Qed.

(** partition_localidx after partition_invert: every cell gets its position in
    the segment of its own block. *)
Theorem C07_localidx p pi0 inv0 loc0 nb :
  nb = Z.to_nat (max_block p + 1) → length pi0 = S nb → length inv0 = length p →
  length loc0 = length p →
  ∃ pi inv loc, invert p pi0 inv0 = Some (pi, inv) ∧ localidx nb pi inv loc0 = Some loc ∧
    length loc = length p ∧
    ∀ c b, p !! c = Some b →
      ∃ s e l, pi !! b = Some s ∧ pi !! S b = Some e ∧ loc !! c = Some l ∧
        s + l < e ∧ inv !! (s + l) = Some c.
Proof.
  intros Hnb Hpi Hinv Hloc.
  destruct (C07_invert p pi0 inv0 nb Hnb Hpi Hinv) as (pi & inv & E & Hh & _).
  destruct (localidx_loop_Some p pi inv (block_cells p <$> seq 0 nb) nb 0 loc0) as (loc & El & Hl & H1 & _).
  - done.
  - by rewrite fmap_length, seq_length.
  - intros b r c Hr Hc. apply cells_lookup_block in Hr as ->.
    by apply elem_of_list_filter in Hc as [? _].
  - intros b r Hr. apply cells_lookup_block in Hr as ->. apply NoDup_filter, NoDup_seq.
  - done.
  - exists pi, inv, loc. split_and!; [done|done|done|].
    intros c b Hc.
    assert (Hb : b < nb).
    { pose proof (max_block_lt p) as Hf. rewrite Forall_forall in Hf. rewrite Hnb. apply Hf.
      by eapply elem_of_list_lookup_2. }
    assert (Hr : (block_cells p <$> seq 0 nb) !! b = Some (block_cells p b)).
    { rewrite list_lookup_fmap, lookup_seq_lt by lia. done. }
    assert (Hin : c ∈ block_cells p b).
    { apply elem_of_list_filter. split; [done|]. apply elem_of_seq.
      apply lookup_lt_Some in Hc. lia. }
    apply elem_of_list_lookup in Hin as [t Ht].
    destruct Hh as (_ & _ & _ & Hh). destruct (Hh _ _ Hr) as (s & e & Es & Ee & Hle & Hs).
    pose proof (slice_length _ _ _ _ Hs). pose proof (lookup_lt_Some _ _ _ Ht).
    exists s, e, t. split_and!; [done|done| |lia|].
    + eapply H1; [|done|done]. lia.
    + rewrite (slice_lookup _ _ _ _ t Hs) by lia. done.
Qed.
Print Assumptions C07_localidx.

(** partition_allocate_inverse succeeds exactly when both allocations do, and
    then provides arrays of the size needed above. *)
Theorem C07_allocate junk nc p o ret r o' :
  allocate_inverse junk nc (max_block p) o = (ret, r, o') →
  match r with
  | Some (pi, inv) => length pi = S (Z.to_nat (max_block p + 1)) ∧ length inv = nc ∧ ret = Z.of_nat nc
  | None => ((next_alloc o).1 = false ∨ (next_alloc (next_alloc o).2).1 = false)
  end.
Proof.
  unfold allocate_inverse. destruct (next_alloc o) as [a oa] eqn:Ea.
  destruct (next_alloc oa) as [b ob] eqn:Eb. destruct a, b; simpl; intros [= <- <- <-]; simpl; rewrite ?Eb; auto.
  rewrite !fmap_length, !seq_length. split_and!; [lia|done|done].
Qed.

(** False of the code: "-1 and pointers to NULL if not" successful
    (partition.c:186-187): it returns 0. *)
Theorem C07_failure_code_refuted :
  ∃ junk nc max_bin o ret o', allocate_inverse junk nc max_bin o = (ret, None, o') ∧ ret ≠ (-1)%Z.
Proof. exists (λ _, 0), 3, 1%Z, [false], 0%Z, []. done. Qed.

Example C07_example :
  invert [2; 0; 2; 0; 3] (replicate 5 77) (replicate 5 77)
  = Some ([0; 2; 2; 4; 5], [1; 3; 0; 2; 4]) ∧
  localidx 4 [0; 2; 2; 4; 5] [1; 3; 0; 2; 4] (replicate 5 77) = Some [0; 0; 1; 1; 0].
Proof. by vm_compute. Qed.

(** ** C09 *)

(** For every nonempty partition vector: same block before iff same block
    after, order of blocks kept, exactly the numbers 0..ret are used. *)
Theorem C09_compress p o :
  p ≠ [] → (next_alloc o).1 = true →
  ∃ ret p', compress p o = Some (ret, p') ∧ length p' = length p ∧
    (∀ i j b c b' c', p !! i = Some b → p !! j = Some c → p' !! i = Some b' → p' !! j = Some c' →
       (b < c ↔ (b' < c')%Z) ∧ (b = c ↔ b' = c')) ∧
    (∀ k : Z, (0 ≤ k ∧ k ≤ ret)%Z ↔ k ∈ p').
Proof.
  intros Hp Ho. rewrite compress_Some by done. eexists _, _. split_and!; [done|by rewrite fmap_length| |].
  - intros i j b c b' c' Hb Hc Hb' Hc'.
    rewrite list_lookup_fmap, Hb in Hb'. rewrite list_lookup_fmap, Hc in Hc'. simplify_eq/=.
    apply elem_of_list_lookup_2 in Hb, Hc.
    assert (b < c → used p b < used p c) by (intros; by apply used_lt).
    assert (c < b → used p c < used p b) by (intros; by apply used_lt).
    assert (b = c → used p b = used p c) by (by intros ->).
    destruct (lt_eq_lt_dec b c) as [[?|?]|?]; split; split; intros; try lia.
  - intros k. split.
    + intros Hk. destruct (used_surj p (S (Z.to_nat (max_block p))) (Z.to_nat k)) as (b & _ & Hb & Hu); [lia|].
      apply elem_of_list_fmap. exists b. split; [lia|done].
    + intros Hk. apply elem_of_list_fmap in Hk as (b & -> & Hb).
      pose proof (max_block_bound p) as Hf. rewrite Forall_forall in Hf. specialize (Hf b Hb).
      assert (used p b < used p (S (Z.to_nat (max_block p)))) by (apply used_lt; [lia|done]). lia.
Qed.
Print Assumptions C09_compress.

(** If the work array cannot be allocated, -1 is returned and p is unchanged. *)
Theorem C09_failure p o :
  p ≠ [] → (next_alloc o).1 = false → compress p o = Some ((-1)%Z, Z.of_nat <$> p).
Proof.
  intros Hp Ho. unfold compress. rewrite decide_True by (destruct p; simpl; [done|lia]). by rewrite Ho.
Qed.

(** Compressing twice changes nothing the second time. *)
Theorem C09_idempotent p o ret p' :
  (next_alloc o).1 = true → compress p o = Some (ret, p') →
  compress (Z.to_nat <$> p') [] = Some (ret, p').
Proof.
  intros Ho H.
  assert (Hp : p ≠ []) by (intros ->; done).
  destruct (C09_compress p o Hp Ho) as (ret1 & p1 & E & Hl & _ & Hk).
  rewrite H in E. simplify_eq E. intros <- <-. clear E.
  set (q := Z.to_nat <$> p').
  assert (Hq : q ≠ []).
  { intros Hq. apply Hp. apply nil_length_inv. rewrite <- Hl.
    apply (f_equal length) in Hq. unfold q in Hq. by rewrite fmap_length in Hq. }
  rewrite compress_Some by done.
  assert (Hin : ∀ b : nat, b ∈ q ↔ (Z.of_nat b ≤ ret)%Z).
  { intros b. unfold q. rewrite elem_of_list_fmap. split.
    - intros (z & -> & Hz). apply Hk in Hz. lia.
    - intros Hb. exists (Z.of_nat b). split; [lia|]. apply Hk. lia. }
  assert (Hu : ∀ n, used q n = Nat.min n (Z.to_nat (ret + 1))).
  { induction n as [|n IHn]; [done|]. cbn [used]. rewrite IHn.
    pose proof (Hin n). destruct (decide (n ∈ q)) as [Hd|Hd].
    - apply Hin in Hd. lia.
    - assert (¬ (Z.of_nat n ≤ ret)%Z) by naive_solver. lia. }
  assert (Hret : (0 ≤ ret)%Z).
  { destruct q as [|x q'] eqn:Eq; [done|]. pose proof (proj1 (Hin x) ltac:(left)). lia. }
  assert (Hmax : max_block q = ret).
  { destruct (max_block_in q Hq) as (x & Hx & E). apply Hin in Hx.
    assert (Z.to_nat ret ∈ q) as Hr by (apply Hin; lia).
    pose proof (max_block_bound q) as Hf. rewrite Forall_forall in Hf. specialize (Hf _ Hr). lia. }
  rewrite Hmax, Hu. f_equal. f_equal; [lia|].
  apply list_eq. intros i. rewrite list_lookup_fmap. unfold q. rewrite list_lookup_fmap.
  destruct (p' !! i) as [z|] eqn:Ez; [|done]. simpl. f_equal.
  apply elem_of_list_lookup_2 in Ez. apply Hk in Ez. fold q. rewrite Hu. lia.
Qed.
Print Assumptions C09_idempotent.

Example C09_example : compress [7; 2; 7; 5; 2] [] = Some (2, [2; 0; 2; 1; 0])%Z.
Proof. by vm_compute. Qed.

(** ** C08 *)
Local Open Scope Z_scope.

(** Specification: lexicographic numbering of grid coordinates, first
    coordinate fastest. *)
Fixpoint linear (dims xs : list Z) : Z :=
  match dims, xs with
  | d :: dims, x :: xs => x + d * linear dims xs
  | _, _ => 0
  end.
Definition coords_in (dims xs : list Z) : Prop := Forall2 (λ d x, 0 ≤ x < d) dims xs.
(** [s] cuts the interval [0, size) into [nbins] consecutive pieces whose
    lengths differ by at most one. *)
Definition balanced (size nbins : Z) (s : Z → Z) : Prop :=
  s 0 = 0 ∧ s nbins = size ∧
  ∀ b c, 0 ≤ b < nbins → 0 ≤ c < nbins →
    1 ≤ s (b + 1) - s b ∧ (s (b + 1) - s b) - (s (c + 1) - s c) ≤ 1.

(** One direction: the bin of index [idx] is the piece of a balanced cut that
    contains it. *)
Theorem C08_one_direction size nbins :
  0 < nbins ≤ size →
  ∃ s, balanced size nbins s ∧
    ∀ idx, 0 ≤ idx < size →
      ∃ b, lin_dist size nbins idx = Some b ∧ 0 ≤ b < nbins ∧ s b ≤ idx < s (b + 1).
Proof.
  intros Hn. exists (bstart size nbins). split; [|intros; by apply lin_dist_Some].
  assert (1 ≤ size / nbins) by (apply Z.div_le_lower_bound; lia).
  pose proof (Z.mod_pos_bound size nbins ltac:(lia)) as M.
  pose proof (Z.div_mod size nbins ltac:(lia)) as D.
  unfold balanced, bstart. split_and!.
  - rewrite Z.min_l by lia. lia.
  - rewrite Z.min_r by lia. lia.
  - intros b c Hb Hc. split; [nia|].
    destruct (Z.min_spec b (size mod nbins)) as [[? ->]|[? ->]];
    destruct (Z.min_spec (b + 1) (size mod nbins)) as [[? ->]|[? ->]];
    destruct (Z.min_spec c (size mod nbins)) as [[? ->]|[? ->]];
    destruct (Z.min_spec (c + 1) (size mod nbins)) as [[? ->]|[? ->]]; nia.
Qed.
Print Assumptions C08_one_direction.

Lemma coord_idx_linear dims xs : coords_in dims xs → coord_idx dims (linear dims xs) = Some xs.
Proof.
  induction 1 as [|d x dims xs Hx Hr IH]; [done|]. cbn [coord_idx linear].
  assert (0 ≤ linear dims xs).
  { clear -Hr. induction Hr as [|d x dims xs Hx Hr IH]; simpl; [lia|]. nia. }
  unfold c_mod, c_div. rewrite !decide_False by lia. cbn [mbind option_bind].
  rewrite Z.rem_mod_nonneg, Z.quot_div_nonneg by nia.
  replace (x + d * linear dims xs) with (x + linear dims xs * d) by ring.
  rewrite Z.mod_add, Z.div_add by lia. rewrite Z.mod_small, Z.div_small by lia.
  rewrite Z.add_0_l, IH. done.
Qed.

Lemma lin_idx_linear dims xs :
  dims ≠ [] → length dims = length xs → lin_idx dims xs = Some (linear dims xs).
Proof.
  revert xs. induction dims as [|d dims IH]; intros xs Hd Hl; [done|].
  destruct xs as [|x xs]; [done|]. destruct dims as [|d' dims].
  - destruct xs; [|simpl in Hl; lia]. simpl. f_equal. ring.
  - destruct xs as [|x' xs]; [simpl in Hl; lia|]. 
    specialize (IH (x' :: xs) ltac:(done) ltac:(simpl in *; lia)).
    change (lin_idx (d :: d' :: dims) (x :: x' :: xs))
      with (idx ← lin_idx (d' :: dims) (x' :: xs); Some (x + d * idx)).
    rewrite IH. done.
Qed.

Lemma linear_bound dims xs :
  coords_in dims xs → 0 ≤ linear dims xs < foldr Z.mul 1 dims.
Proof.
  induction 1 as [|d x dims xs Hx Hr IH]; simpl; [lia|]. nia.
Qed.

(** Any number of directions: there is a balanced cut in each direction, and
    the block of the cell at [xs] is the block containing each coordinate. *)
Theorem C08_all_directions fine coarse :
  fine ≠ [] → Forall2 (λ s n, 0 < n ≤ s) fine coarse →
  ∃ ss, Forall2 (λ sn s, balanced sn.1 sn.2 s) (zip fine coarse) ss ∧
    ∀ xs, coords_in fine xs →
      ∃ bs, unif_one fine coarse (linear fine xs) = Some (linear coarse bs) ∧
        coords_in coarse bs ∧ Forall2 (λ sb x, sb.1 sb.2 ≤ x < sb.1 (sb.2 + 1)) (zip ss bs) xs.
Proof.
  intros Hne Hf.
  assert (G : ∃ ss, Forall2 (λ sn s, balanced sn.1 sn.2 s) (zip fine coarse) ss ∧
    ∀ xs, coords_in fine xs → ∃ bs, loadbal fine coarse xs = Some bs ∧
        coords_in coarse bs ∧ Forall2 (λ sb x, sb.1 sb.2 ≤ x < sb.1 (sb.2 + 1)) (zip ss bs) xs).
  { clear Hne. induction Hf as [|s n fine coarse Hsn Hf IH].
    - exists []. split; [constructor|]. intros xs Hxs. inversion Hxs; subst.
      exists []. split_and!; [done|constructor|constructor].
    - destruct IH as (ss & Hss & H). destruct (C08_one_direction s n Hsn) as (s0 & Hs0 & H0).
      exists (s0 :: ss). split; [by constructor|]. intros xs Hxs. inversion Hxs as [|? x ? xs' Hx Hxs']; subst.
      destruct (H0 x Hx) as (b & Eb & Hb & Hbx). destruct (H xs' Hxs') as (bs & Ebs & Hbs & Hbsx).
      exists (b :: bs). cbn [loadbal]. rewrite Eb. cbn [mbind option_bind]. rewrite Ebs.
      split_and!; [done|by constructor|by constructor]. }
  destruct G as (ss & Hss & H). exists ss. split; [done|]. intros xs Hxs.
  destruct (H xs Hxs) as (bs & Ebs & Hbs & Hb). exists bs. split_and!; [|done|done].
  unfold unif_one. rewrite coord_idx_linear by done. cbn [mbind option_bind]. rewrite Ebs. cbn [mbind option_bind].
  apply lin_idx_linear.
  - intros ->. by inversion Hf.
  - by apply Forall2_length in Hbs.
Qed.
Print Assumptions C08_all_directions.

(** Every cell number of the box is the number of some coordinates, so the
    theorem above covers every valid index. *)
Theorem C08_every_index dims idx :
  Forall (λ d, 0 < d) dims → 0 ≤ idx < foldr Z.mul 1 dims →
  ∃ xs, coords_in dims xs ∧ linear dims xs = idx.
Proof.
  intros Hd. revert idx. induction Hd as [|d dims Hd Hds IH]; intros idx Hi; simpl in Hi.
  - exists []. split; [constructor|]. simpl. lia.
  - destruct (IH (idx / d)) as (xs & Hxs & E).
    { split; [apply Z.div_pos; lia|]. apply Z.div_lt_upper_bound; lia. }
    exists (idx mod d :: xs). split.
    + constructor; [by apply Z.mod_pos_bound|done].
    + simpl. rewrite E. pose proof (Z.div_mod idx d ltac:(lia)). lia.
Qed.

(** The function on a whole list of cells: all block numbers are in range, and
    if the list contains every cell then every block is used. *)
Theorem C08_unif_idx fine coarse idx p0 o :
  fine ≠ [] → Forall2 (λ s n, 0 < n ≤ s) fine coarse →
  Forall (λ i, 0 ≤ i < foldr Z.mul 1 fine) idx →
  (next_alloc o).1 = true →
  ∃ p, unif_idx fine coarse idx p0 o = Some (Z.of_nat (length idx), p) ∧
    length p = length idx ∧ Forall (λ b, 0 ≤ b < foldr Z.mul 1 coarse) p ∧
    ((∀ i, 0 ≤ i < foldr Z.mul 1 fine → i ∈ idx) →
      ∀ b, 0 ≤ b < foldr Z.mul 1 coarse → b ∈ p).
Proof.
  intros Hne Hf Hidx Ho.
  assert (Hpos : Forall (λ d, 0 < d) fine).
  { clear -Hf. induction Hf as [|s n f c H Hf IH]; constructor; [lia|done]. }
  assert (Hposc : Forall (λ d, 0 < d) coarse).
  { clear -Hf. induction Hf as [|s n f c H Hf IH]; constructor; [lia|done]. }
  destruct (C08_all_directions fine coarse Hne Hf) as (ss & Hss & H).
  assert (Hone : ∀ i, 0 ≤ i < foldr Z.mul 1 fine → ∃ b, unif_one fine coarse i = Some b ∧ 0 ≤ b < foldr Z.mul 1 coarse).
  { intros i Hi. destruct (C08_every_index fine i Hpos Hi) as (xs & Hxs & <-).
    destruct (H xs Hxs) as (bs & E & Hbs & _). exists (linear coarse bs). split; [done|].
    by apply linear_bound. }
  assert (HM : ∃ p, mapM (unif_one fine coarse) idx = Some p ∧ Forall2 (λ i b, unif_one fine coarse i = Some b) idx p).
  { clear -Hidx Hone. induction Hidx as [|i idx Hi Hidx IH].
    - exists []. split; [done|constructor].
    - destruct (Hone i Hi) as (b & E & _). destruct IH as (p & Ep & HF). exists (b :: p).
      simpl. rewrite E. cbn [mbind option_bind]. rewrite Ep. split; [done|by constructor]. }
  destruct HM as (p & Ep & HF). exists p. unfold unif_idx. rewrite Ho, Ep. cbn [mbind option_bind].
  split_and!.
  - done.
  - symmetry. by eapply Forall2_length.
  - clear -HF Hidx Hone. revert Hidx. induction HF as [|i b idx p E HF IH]; intros Hidx; constructor.
    + apply Forall_cons_1 in Hidx as [Hi _]. destruct (Hone i Hi) as (b' & E' & Hb'). congruence.
    + apply Forall_cons_1 in Hidx as [_ Hi]. by apply IH.
  - intros Hall b Hb.
    destruct (C08_every_index coarse b Hposc Hb) as (bs & Hbs & <-).
    (* the cell at the lower corner of the block *)
    assert (G : ∀ bs, coords_in coarse bs → ∃ xs, coords_in fine xs ∧
        Forall2 (λ sb x, sb.1 sb.2 = x) (zip ss bs) xs).
    { clear -Hss Hf. revert ss Hss. induction Hf as [|s n fine coarse Hsn Hf IH]; intros ss Hss bs Hbs.
      - inversion Hss; subst. exists []. split; constructor.
      - inversion Hss as [|? s0 ? ss' Hs0 Hss']; subst. inversion Hbs as [|? b ? bs' Hb Hbs']; subst.
        destruct (IH ss' Hss' bs' Hbs') as (xs & Hxs & HF). exists (s0 b :: xs). split; [|by constructor].
        constructor; [|done]. destruct Hs0 as (Hz0 & Hzn & Hs0). simpl in *.
        assert (Hm : ∀ k : nat, 0 ≤ Z.of_nat k ≤ n → Z.of_nat k ≤ s0 (Z.of_nat k)).
        { induction k as [|k IHk]; intros Hk; [change (Z.of_nat 0) with 0; rewrite Hz0; lia|].
          destruct (Hs0 (Z.of_nat k) 0 ltac:(lia) ltac:(lia)) as [? _].
          replace (Z.of_nat (S k)) with (Z.of_nat k + 1) by lia. specialize (IHk ltac:(lia)). lia. }
        assert (Hm' : ∀ k : nat, 0 ≤ n - Z.of_nat k → s0 (n - Z.of_nat k) ≤ s - Z.of_nat k).
        { induction k as [|k IHk]; intros Hk; [change (Z.of_nat 0) with 0; rewrite Z.sub_0_r, Hzn; lia|].
          destruct (Hs0 (n - Z.of_nat (S k)) 0 ltac:(lia) ltac:(lia)) as [? _].
          replace (n - Z.of_nat (S k) + 1) with (n - Z.of_nat k) in * by lia. specialize (IHk ltac:(lia)). lia. }
        specialize (Hm (Z.to_nat b) ltac:(lia)). specialize (Hm' (Z.to_nat (n - b)) ltac:(lia)).
        rewrite Z2Nat.id in Hm by lia. rewrite Z2Nat.id in Hm' by lia.
        replace (n - (n - b)) with b in Hm' by lia. lia. }
    destruct (G bs Hbs) as (xs & Hxs & Hxb).
    destruct (H xs Hxs) as (bs' & E & Hbs' & Hin).
    assert (bs' = bs) as ->.
    { clear -Hss Hf Hbs Hbs' Hxb Hin. revert ss Hss bs bs' xs Hbs Hbs' Hxb Hin.
      induction Hf as [|s n fine coarse Hsn Hf IH]; intros ss Hss bs bs' xs Hbs Hbs' Hxb Hin.
      - inversion Hbs; inversion Hbs'; by subst.
      - inversion Hss as [|? s0 ? ss' Hs0 Hss']; subst. inversion Hbs as [|? b ? bst Hb Hbst]; subst.
        inversion Hbs' as [|? b' ? bst' Hb' Hbst']; subst. simpl in Hxb, Hin.
        inversion Hxb as [|? x ? xst Hx Hxst]; subst. inversion Hin as [|? ? ? ? Hi Hit]; subst.
        simpl in *. f_equal; [|by eapply IH].
        destruct Hs0 as (Hz0 & Hzn & Hs0).
        assert (Hm : ∀ (k : nat) a, 0 ≤ a → a + Z.of_nat k ≤ n → s0 a + Z.of_nat k ≤ s0 (a + Z.of_nat k)).
        { induction k as [|k IHk]; intros a Ha Hk; [change (Z.of_nat 0) with 0; rewrite !Z.add_0_r; lia|].
          destruct (Hs0 (a + Z.of_nat k) 0 ltac:(lia) ltac:(lia)) as [? _].
          replace (a + Z.of_nat (S k)) with (a + Z.of_nat k + 1) by lia. specialize (IHk a Ha ltac:(lia)). lia. }
        destruct (Z.lt_trichotomy b b') as [Hlt|[Heq|Hgt]]; [|done|].
        + pose proof (Hm (Z.to_nat (b' - b)) b ltac:(lia) ltac:(lia)) as M.
          rewrite Z2Nat.id in M by lia. replace (b + (b' - b)) with b' in M by lia. lia.
        + pose proof (Hm (Z.to_nat (b - (b' + 1))) (b' + 1) ltac:(lia) ltac:(lia)) as M.
          rewrite Z2Nat.id in M by lia. replace (b' + 1 + (b - (b' + 1))) with b in M by lia. lia. }
    assert (Hi : linear fine xs ∈ idx) by (apply Hall; by apply linear_bound).
    apply elem_of_list_lookup in Hi as [k Hk].
    destruct (Forall2_lookup_l _ _ _ _ _ HF Hk) as (b' & Hb' & E'). simpl in E'.
    rewrite E in E'. simplify_eq. by eapply elem_of_list_lookup_2.
Qed.
Print Assumptions C08_unif_idx.

(** No cell is touched when the work array cannot be allocated. *)
Theorem C08_failure fine coarse idx p0 o :
  (next_alloc o).1 = false → unif_idx fine coarse idx p0 o = Some (-1, p0).
Proof. intros Ho. unfold unif_idx. by rewrite Ho. Qed.

(** False of the code: more bins than cells in a direction is handled (it
    divides by zero although a partition with empty blocks would exist). *)
Theorem C08_more_bins_than_cells_refuted :
  ∃ size nbins idx, 0 < size ∧ 0 < nbins ∧ 0 ≤ idx < size ∧ lin_dist size nbins idx = None.
Proof. exists 2, 3, 0. split_and!; try lia. done. Qed.

Example C08_example :
  unif_idx [5; 3] [2; 2] [0;1;2;3;4;5;6;7;8;9;10;11;12;13;14] (replicate 15 77) []
  = Some (15, [0;0;0;1;1; 0;0;0;1;1; 2;2;2;3;3]).
Proof. by vm_compute. Qed.
