(** Lemmas about the splitting of disconnected blocks. *)
From stdpp Require Import relations.
From Verif Require Import Base CsrModel CsrSpec CsrProof PartModel PartProof DfsModel DfsProof DfsProps SplitModel.

(** ** Longer arrays *)
Lemma count_all_frame ia ks ia' x : count_all ia ks = Some ia' → count_all (ia ++ x) ks = Some (ia' ++ x).
Proof.
  revert ia. induction ks as [|k ks IH]; intros ia H; simpl in *; [by simplify_eq|].
  destruct (count_one ia k) as [ia1|] eqn:E; [|done]. cbn [mbind option_bind] in H.
  unfold count_one in *. destruct (ia !! S k) as [y|] eqn:E1; [|done]. cbn [mbind option_bind] in E.
  rewrite (lookup_app_Some _ _ _ _ E1). cbn [mbind option_bind].
  rewrite (upd_app _ _ _ _ _ E). cbn [mbind option_bind]. by apply IH.
Qed.
Lemma scan_loop_frame n i ia ia' x : scan_loop n i ia = Some ia' → scan_loop n i (ia ++ x) = Some (ia' ++ x).
Proof.
  revert i ia. induction n as [|n IH]; intros i ia H; simpl in *; [by simplify_eq|].
  destruct (ia !! 0) as [a|] eqn:E1; [|done]. cbn [mbind option_bind] in H.
  rewrite (lookup_app_Some _ _ _ _ E1). cbn [mbind option_bind].
  destruct (ia !! i) as [y|] eqn:E2; [|done]. cbn [mbind option_bind] in H.
  rewrite (lookup_app_Some _ _ _ _ E2). cbn [mbind option_bind].
  destruct (upd ia 0 (a + y)) as [ia1|] eqn:E3; [|done]. cbn [mbind option_bind] in H.
  rewrite (upd_app _ _ _ _ _ E3). cbn [mbind option_bind].
  destruct (ia1 !! 0) as [a1|] eqn:E4; [|done]. cbn [mbind option_bind] in H.
  rewrite (lookup_app_Some _ _ _ _ E4). cbn [mbind option_bind].
  destruct (ia1 !! i) as [y1|] eqn:E5; [|done]. cbn [mbind option_bind] in H.
  rewrite (lookup_app_Some _ _ _ _ E5). cbn [mbind option_bind].
  destruct (upd ia1 i (a1 - y1)) as [ia2|] eqn:E6; [|done]. cbn [mbind option_bind] in H.
  rewrite (upd_app _ _ _ _ _ E6). cbn [mbind option_bind]. by apply IH.
Qed.
Lemma push_all_frame ia ja kvs ia' ja' x y :
  push_all (ia, ja) kvs = Some (ia', ja') → push_all (ia ++ x, ja ++ y) kvs = Some (ia' ++ x, ja' ++ y).
Proof.
  revert ia ja. induction kvs as [|kv kvs IH]; intros ia ja H; simpl in *; [by simplify_eq|].
  destruct (ia !! S kv.1) as [q|] eqn:E1; [|done]. cbn [mbind option_bind] in H.
  rewrite (lookup_app_Some _ _ _ _ E1). cbn [mbind option_bind].
  destruct (upd ja q kv.2) as [ja1|] eqn:E2; [|done]. cbn [mbind option_bind] in H.
  rewrite (upd_app _ _ _ _ _ E2). cbn [mbind option_bind].
  destruct (upd ia (S kv.1) (S q)) as [ia1|] eqn:E3; [|done]. cbn [mbind option_bind] in H.
  rewrite (upd_app _ _ _ _ _ E3). cbn [mbind option_bind]. by apply IH.
Qed.

(** ** The cell graph *)
Lemma scan1_loop_gen a pre rest :
  scan1_loop (length rest) (S (length pre)) (a :: pre ++ rest)
  = Some ((a + sum_list (S <$> rest)) :: pre ++ offs a (S <$> rest)).
Proof.
  revert a pre. induction rest as [|x rest IH]; intros a pre; cbn [length scan1_loop].
  - simpl. rewrite app_nil_r. do 2 f_equal. lia.
  - assert (E1 : ∀ b y, (b :: pre ++ y :: rest) !! S (length pre) = Some y).
    { intros b y. simpl. by rewrite lookup_app_r, Nat.sub_diag by lia. }
    assert (E2 : ∀ b y z, <[S (length pre):=z]> (b :: pre ++ y :: rest) = b :: pre ++ z :: rest).
    { intros b y z. simpl. f_equal. rewrite insert_app_r_alt by lia. by rewrite Nat.sub_diag. }
    assert (E3 : ∀ b y z, upd (b :: pre ++ y :: rest) (S (length pre)) z = Some (b :: pre ++ z :: rest)).
    { intros b y z. rewrite upd_Some by (simpl; rewrite app_length; simpl; lia). by rewrite E2. }
    rewrite E1. cbn [mbind option_bind]. rewrite E3. cbn [mbind option_bind].
    change ((a :: pre ++ x + 1 :: rest) !! 0) with (Some a). cbn [mbind option_bind].
    rewrite E1. cbn [mbind option_bind]. rewrite upd_Some by (simpl; lia). cbn [mbind option_bind].
    change (<[0:=a + (x + 1)]> (a :: pre ++ x + 1 :: rest)) with ((a + (x + 1)) :: pre ++ x + 1 :: rest).
    change ((a + (x + 1) :: pre ++ x + 1 :: rest) !! 0) with (Some (a + (x + 1))). cbn [mbind option_bind].
    rewrite E1. cbn [mbind option_bind]. rewrite E3. cbn [mbind option_bind].
    replace (a + (x + 1) - (x + 1)) with a by lia.
    specialize (IH (a + (x + 1)) (pre ++ [a])). rewrite app_length in IH. simpl in IH.
    rewrite Nat.add_1_r in IH. rewrite <- app_assoc in IH. simpl in IH. rewrite IH.
    rewrite <- app_assoc. rewrite fmap_cons. simpl. replace (a + (x + 1)) with (a + S x) by lia. do 2 f_equal. lia.
Qed.

Section c2c.
Variable nc : nat.
Variable neigh : list (option nat * option nat).
Hypothesis Hnc : 0 < nc.
Hypothesis Hin : Forall (λ kv, kv.1 < nc ∧ kv.2 < nc) (face_keys neigh).
Definition citems : list (nat * nat) := self_keys nc ++ face_keys neigh.

Lemma row_of_self n k i : k ≤ i → i < k + n → row_of ((λ i, (i, i)) <$> seq k n) i = [i].
Proof.
  revert k. induction n as [|n IH]; intros k H1 H2; [lia|]. cbn [seq]. rewrite fmap_cons.
  unfold row_of in *. rewrite filter_cons. cbn [fst]. destruct (decide (k = i)) as [->|Hne].
  - rewrite fmap_cons. cbn [snd]. f_equal. clear IH H1 H2.
    assert (G : ∀ m j, i < j → filter (λ kv : nat * nat, kv.1 = i) ((λ i, (i, i)) <$> seq j m) = []).
    { induction m as [|m IH]; intros j Hj; [done|]. cbn [seq]. rewrite fmap_cons, filter_cons. cbn [fst].
      rewrite decide_False by lia. apply IH. lia. }
    rewrite G by lia. done.
  - apply IH; lia.
Qed.
Lemma row_of_citems i : i < nc → row_of citems i = i :: row_of (face_keys neigh) i.
Proof.
  intros Hi. unfold citems. rewrite row_of_app. unfold self_keys. rewrite row_of_self by lia. done.
Qed.

Lemma citems_keys : Forall (λ kv, kv.1 < nc) citems.
Proof.
  unfold citems. apply Forall_app. split.
  - unfold self_keys. apply Forall_fmap. apply Forall_forall. intros x Hx. apply elem_of_seq in Hx. simpl. lia.
  - eapply Forall_impl; [exact Hin|]. simpl. intros. lia.
Qed.

Lemma create_c2c_eq reset junk o :
  0 < length neigh →
  create_c2c reset junk nc neigh o =
    let '(ok1, o1) := next_alloc o in
    if ok1 then
      let '(ok2, o2) := next_alloc o1 in
      if ok2 then
        Some (Some ((if reset then 0 else length citems) :: tail (starts 0 (rows_of nc citems)),
                    concat (rows_of nc citems)), o2)
      else Some (None, o2)
    else Some (None, o1).
Proof.
  intros Hn. unfold create_c2c. rewrite !decide_True by done.
  destruct (next_alloc o) as [[] o1]; [|done].
  rewrite zero_loop_Some by (rewrite fmap_length, seq_length; lia). cbn [mbind option_bind].
  rewrite take_0, drop_ge, app_nil_r by (rewrite fmap_length, seq_length; lia). simpl (_ ++ _).
  destruct (count_scan nc (face_keys neigh).*1 (face_keys neigh)) as (ia & -> & ->).
  { apply Forall_fmap. eapply Forall_impl; [exact Hin|]. simpl. intros. lia. } { done. }
  cbn [mbind option_bind].
  set (fc := (λ i, length (row_of (face_keys neigh) i)) <$> seq 0 nc).
  assert (Hfc : length fc = nc) by (unfold fc; by rewrite fmap_length, seq_length).
  rewrite <- Hfc at 1. pose proof (scan1_loop_gen 0 [] fc) as HS; cbn [length app] in HS; rewrite HS. cbn [mbind option_bind app].
  assert (Hcs : S <$> fc = (λ i, length (row_of citems i)) <$> seq 0 nc).
  { unfold fc. rewrite <- list_fmap_compose. apply list_fmap_ext. intros i x Hx.
    apply lookup_seq in Hx as [-> Hi]. simpl. by rewrite row_of_citems by lia. }
  rewrite Hcs. rewrite sum_counts by apply citems_keys.
  cbn [lookup list_lookup mbind option_bind].
  destruct (next_alloc o1) as [[] o2]; [|done].
  pose proof (push_all_correct nc citems citems_keys (length citems) (junk <$> seq 0 (length citems))) as HP.
  rewrite fmap_length, seq_length in HP. specialize (HP eq_refl).
  assert (HPa : ∀ t, push_all t citems = (t ← push_all t (self_keys nc); push_all t (face_keys neigh))).
  { intros t. apply push_all_app. }
  rewrite HPa in HP. clear HPa.
  replace (0 + length citems) with (length citems) by lia.
  destruct (push_all _ (self_keys nc)) as [[ia1 ja1]|]; [|done]. cbn [mbind option_bind] in *.
  rewrite HP. cbn [mbind option_bind]. destruct reset; [|done].
  rewrite upd_Some by (simpl; lia). done.
Qed.
End c2c.

(** ** Connections out of a cell *)
Definition conn_ok (nc : nat) (eff : nat → list nat) (pc2c c2c : list nat) : Prop :=
  ∀ c, c < nc → ∃ s e, pc2c !! c = Some s ∧ pc2c !! S c = Some e ∧ slice c2c s (e - s) = Some (eff c).
(** Difference of the two pointers of a cell. *)
Definition kz (pc2c : list nat) (c : nat) : Z :=
  Z.of_nat (default 0 (pc2c !! S c)) - Z.of_nat (default 0 (pc2c !! c)).

Lemma slice_nil {A} (l : list A) b : slice l b 0 = Some [].
Proof. done. Qed.

Lemma c2c_conn_ok (reset : bool) nc neigh :
  0 < nc → Forall (λ kv, kv.1 < nc ∧ kv.2 < nc) (face_keys neigh) →
  let items := citems nc neigh in
  let pc2c := (if reset then 0 else length items) :: tail (starts 0 (rows_of nc items)) in
  conn_ok nc (λ c, if decide (reset = true ∨ c ≠ 0) then row_of items c else []) pc2c (concat (rows_of nc items)) ∧
  ∀ c, c < nc → kz pc2c c =
    if decide (reset = true ∨ c ≠ 0) then Z.of_nat (length (row_of items c))
    else (Z.of_nat (length (row_of items c)) - Z.of_nat (length items))%Z.
Proof.
  intros Hnc Hin items pc2c.
  pose proof (starts_holds (rows_of nc items)) as (Hl & H0 & He & Hr).
  assert (Hlr : length (rows_of nc items) = nc) by (unfold rows_of; by rewrite fmap_length, seq_length).
  assert (Hrow : ∀ c, c < nc → rows_of nc items !! c = Some (row_of items c)).
  { intros c Hc. unfold rows_of. rewrite list_lookup_fmap, lookup_seq_lt by lia. done. }
  assert (Hpt : ∀ c, pc2c !! S c = starts 0 (rows_of nc items) !! S c).
  { intros c. unfold pc2c. simpl. destruct (starts 0 (rows_of nc items)); done. }
  assert (G : ∀ c, c < nc → ∃ s e, pc2c !! c = Some s ∧ pc2c !! S c = Some e ∧
      slice (concat (rows_of nc items)) s (e - s) =
        Some (if decide (reset = true ∨ c ≠ 0) then row_of items c else []) ∧
      (Z.of_nat e - Z.of_nat s)%Z = if decide (reset = true ∨ c ≠ 0) then Z.of_nat (length (row_of items c))
         else (Z.of_nat (length (row_of items c)) - Z.of_nat (length items))%Z).
  { intros c Hc. destruct (Hr c _ (Hrow c Hc)) as (s & e & Es & Ee & Hle & Hs).
    pose proof (slice_length _ _ _ _ Hs) as Hlen.
    destruct (decide (c = 0)) as [->|Hc0].
    - rewrite H0 in Es. simplify_eq. destruct reset.
      + exists 0, e. rewrite Hpt. rewrite !decide_True by (by left). split_and!; [done|done|done|lia].
      + exists (length items), e. rewrite Hpt. rewrite !decide_False by naive_solver.
        assert (e ≤ length items).
        { assert (length (row_of items 0) ≤ length items); [|lia].
          unfold row_of. rewrite fmap_length. apply filter_length. }
        split_and!; [done|done| |lia].
        replace (e - length items) with 0 by lia. done.
    - exists s, e. rewrite Hpt. destruct c as [|c]; [done|]. rewrite Hpt.
      rewrite !decide_True by (right; lia). split_and!; [done|done|done|lia]. }
  split.
  - intros c Hc. destruct (G c Hc) as (s & e & ? & ? & ? & ?). by exists s, e.
  - intros c Hc. destruct (G c Hc) as (s & e & E1 & E2 & ? & <-). unfold kz. by rewrite E1, E2.
Qed.

(** ** Array sizes *)
Lemma count_conns_Some b2c pc2c r i acc :
  (∀ t, t < length r → b2c !! (i + t) = r !! t) → Forall (λ c, S c < length pc2c) r →
  count_conns (length r) i b2c pc2c acc = Some (acc + foldr Z.add 0 (kz pc2c <$> r))%Z.
Proof.
  revert i acc. induction r as [|c r IH]; intros i acc Hi Hf; cbn [count_conns length].
  - simpl. f_equal. lia.
  - apply Forall_cons_1 in Hf as [Hc Hf]. pose proof (Hi 0 ltac:(simpl; lia)) as E.
    rewrite Nat.add_0_r in E. rewrite E. cbn [lookup list_lookup mbind option_bind].
    destruct (lookup_lt_is_Some_2 pc2c (S c)) as [e Ee]; [lia|].
    destruct (lookup_lt_is_Some_2 pc2c c) as [s Es]; [lia|]. rewrite Ee, Es. cbn [mbind option_bind].
    rewrite IH.
    + rewrite fmap_cons. cbn [foldr]. unfold kz at 2. rewrite Ee, Es. cbn [default]. f_equal. simpl. lia.
    + intros t Ht. specialize (Hi (S t) ltac:(simpl; lia)). simpl in Hi. rewrite <- Hi. f_equal. lia.
    + done.
Qed.

Lemma count_block_conns_Some pb2c b2c pc2c blocks n b i maxc maxn :
  holds_rows pb2c b2c blocks → b + n = length blocks →
  pb2c !! b = Some i →
  (∀ b' r c, blocks !! b' = Some r → c ∈ r → S c < length pc2c) →
  ∃ maxc' maxn', count_block_conns n b i pb2c b2c pc2c maxc maxn = Some (maxc', maxn') ∧
    maxc ≤ maxc' ∧ (maxn ≤ maxn')%Z ∧
    ∀ b' r, b ≤ b' → blocks !! b' = Some r → length r ≤ maxc' ∧ (foldr Z.add 0 (kz pc2c <$> r) ≤ maxn')%Z.
Proof.
  intros Hh. revert b i maxc maxn. induction n as [|n IH]; intros b i maxc maxn Hb Hi Hpc; cbn [count_block_conns].
  - exists maxc, maxn. split_and!; [done|lia|lia|]. intros b' r Hle Hr. apply lookup_lt_Some in Hr. lia.
  - pose proof Hh as (Hl & H0 & He & Hr).
    destruct (lookup_lt_is_Some_2 blocks b) as [r Hrb]; [lia|].
    destruct (Hr b r Hrb) as (s & e & Es & Ee & Hle & Hs). rewrite Hi in Es. simplify_eq.
    rewrite Ee, Hi. cbn [mbind option_bind]. pose proof (slice_length _ _ _ _ Hs) as Hlen.
    rewrite <- Hlen. rewrite (count_conns_Some b2c pc2c r).
    + cbn [mbind option_bind].
      destruct (IH (S b) (Nat.max s e) (Nat.max maxc (length r)) (Z.max maxn (0 + foldr Z.add 0 (kz pc2c <$> r))%Z))
        as (mc & mn & E & H1 & H2 & H3).
      * lia. * rewrite Ee. f_equal. lia. * done.
      * exists mc, mn. rewrite E. split_and!; [done|lia|lia|]. intros b' r' Hb' Hr'.
        destruct (decide (b' = b)) as [->|Hne].
        -- assert (r' = r) as -> by congruence. split; lia.
        -- apply (H3 b'); [lia|done].
    + intros t Ht. rewrite (slice_lookup _ _ _ _ t Hs) by lia. done.
    + apply Forall_forall. intros c Hc. by eapply Hpc.
Qed.

(** ** The graph of one block *)
Lemma concat_imap_row_of (rows : list (list nat)) k i r :
  rows !! i = Some r →
  row_of (concat (imap (λ j r, pair (k + j) <$> r) rows)) (k + i) = r.
Proof.
  revert k i. induction rows as [|r0 rows IH]; intros k i Hi; [done|].
  rewrite imap_cons. cbn [concat]. rewrite row_of_app.
  assert (Hself : ∀ j (l : list nat), row_of (pair j <$> l) (k + i) = if decide (j = k + i) then l else []).
  { intros j l. induction l as [|x l IHl]; [by destruct (decide (j = k + i))|].
    rewrite fmap_cons. change (row_of ((j, x) :: (pair j <$> l)) (k + i)) with
      (row_of ([(j, x)] ++ (pair j <$> l)) (k + i)). rewrite row_of_app, row_of_single, IHl.
    by destruct (decide (j = k + i)). }
  rewrite Hself.
  assert (Hsh : imap ((λ j r, pair (k + j) <$> r) ∘ S) rows = imap (λ j (r : list nat), pair (S k + j) <$> r) rows).
  { apply imap_ext. intros j x _. simpl. apply list_fmap_ext. intros _ y _. f_equal. lia. }
  rewrite Hsh. destruct i as [|i].
  - simpl in Hi. simplify_eq. rewrite decide_True by lia.
    assert (G : ∀ (l : list (list nat)) j, k < j → row_of (concat (imap (λ i (r : list nat), pair (j + i) <$> r) l)) (k + 0) = []).
    { induction l as [|x l IHl]; intros j Hj; [done|]. rewrite imap_cons. cbn [concat]. rewrite row_of_app.
      rewrite Hself, decide_False by lia. simpl.
      assert (imap ((λ i (r : list nat), pair (j + i) <$> r) ∘ S) l = imap (λ i (r : list nat), pair (S j + i) <$> r) l) as ->.
      { apply imap_ext. intros i y _. simpl. apply list_fmap_ext. intros _ z _. f_equal. lia. }
      apply IHl. lia. }
    rewrite G by lia. by rewrite app_nil_r.
  - simpl in Hi. rewrite decide_False by lia. simpl.
    replace (k + S i) with (S k + i) by lia. by apply IH.
Qed.

Section block.
Variables (b : nat) (p loc pb2c b2c pc2c c2c : list nat) (blocks : list (list nat)) (cs : list nat).
Variable eff : nat → list nat.
Hypothesis Hblk : holds_rows pb2c b2c blocks.
Hypothesis Hcs : blocks !! b = Some cs.
Hypothesis Hnd : NoDup cs.
Hypothesis Hconn : conn_ok (length p) eff pc2c c2c.
Hypothesis Hlt : ∀ c, c ∈ cs → c < length p.
Hypothesis Hloc : ∀ t c, cs !! t = Some c → loc !! c = Some t.
Hypothesis Heff : ∀ c d, c ∈ cs → d ∈ eff c → d < length p ∧ (p !! d = Some b ↔ d ∈ cs).

Definition lidx (d : nat) : nat := default 0 (loc !! d).
Definition brow (c : nat) : list nat := lidx <$> filter (λ d, d ∈ cs) (eff c).
Definition bgraph : list (list nat) := brow <$> cs.
Definition bkeys (c : nat) : list (nat * nat) := (λ d, (lidx c, lidx d)) <$> filter (λ d, d ∈ cs) (eff c).

Lemma loc_in d : d ∈ cs → loc !! d = Some (lidx d).
Proof. intros [t Ht]%elem_of_list_lookup. unfold lidx. by rewrite (Hloc _ _ Ht). Qed.

Lemma bc_count_eq c l j ia :
  c ∈ cs → (∀ d, d ∈ l → d < length p ∧ (p !! d = Some b ↔ d ∈ cs)) →
  (∀ t, t < length l → c2c !! (j + t) = l !! t) →
  bc_count b p loc c2c (length l) j c ia
  = count_all ia (fst <$> ((λ d, (lidx c, lidx d)) <$> filter (λ d, d ∈ cs) l)).
Proof.
  intros Hc. revert j ia. induction l as [|d l IH]; intros j ia Hl Hj; [done|]. cbn [length bc_count].
  pose proof (Hj 0 ltac:(simpl; lia)) as E. rewrite Nat.add_0_r in E. rewrite E.
  cbn [lookup list_lookup mbind option_bind].
  destruct (Hl d ltac:(left)) as [Hd Hdb]. destruct (lookup_lt_is_Some_2 p d Hd) as [q Hq]. rewrite Hq.
  cbn [mbind option_bind]. rewrite filter_cons.
  assert (IH' : ∀ ia, bc_count b p loc c2c (length l) (S j) c ia
     = count_all ia (fst <$> ((λ d, (lidx c, lidx d)) <$> filter (λ d, d ∈ cs) l))).
  { intros ia'. apply IH.
    - intros d' Hd'. apply Hl. by right.
    - intros t Ht. specialize (Hj (S t) ltac:(simpl; lia)). simpl in Hj. rewrite <- Hj. f_equal. lia. }
  destruct (decide (q = b)) as [->|Hne].
  - rewrite decide_True by naive_solver. rewrite (loc_in c) by done. cbn [mbind option_bind].
    rewrite !fmap_cons. cbn [fst count_all]. destruct (count_one ia (lidx c)); [|done]. cbn [mbind option_bind].
    apply IH'.
  - rewrite decide_False by (rewrite <- Hdb; naive_solver). cbn [mbind option_bind]. apply IH'.
Qed.

Lemma bc_push_eq c l j t :
  c ∈ cs → (∀ d, d ∈ l → d < length p ∧ (p !! d = Some b ↔ d ∈ cs)) →
  (∀ t, t < length l → c2c !! (j + t) = l !! t) →
  bc_push b p loc c2c (length l) j c t
  = push_all t ((λ d, (lidx c, lidx d)) <$> filter (λ d, d ∈ cs) l).
Proof.
  intros Hc. revert j t. induction l as [|d l IH]; intros j t Hl Hj; [done|]. cbn [length bc_push].
  pose proof (Hj 0 ltac:(simpl; lia)) as E. rewrite Nat.add_0_r in E. rewrite E.
  cbn [lookup list_lookup mbind option_bind].
  destruct (Hl d ltac:(left)) as [Hd Hdb]. destruct (lookup_lt_is_Some_2 p d Hd) as [q Hq]. rewrite Hq.
  cbn [mbind option_bind]. rewrite filter_cons.
  assert (IH' : ∀ t, bc_push b p loc c2c (length l) (S j) c t
     = push_all t ((λ d, (lidx c, lidx d)) <$> filter (λ d, d ∈ cs) l)).
  { intros t'. apply IH.
    - intros d' Hd'. apply Hl. by right.
    - intros u Hu. specialize (Hj (S u) ltac:(simpl; lia)). simpl in Hj. rewrite <- Hj. f_equal. lia. }
  destruct (decide (q = b)) as [->|Hne].
  - rewrite decide_True by naive_solver. rewrite (loc_in c) by done. cbn [mbind option_bind].
    rewrite (loc_in d) by naive_solver. cbn [mbind option_bind].
    rewrite !fmap_cons. cbn [push_all]. destruct (push_one t (lidx c, lidx d)); [|done]. cbn [mbind option_bind].
    apply IH'.
  - rewrite decide_False by (rewrite <- Hdb; naive_solver). cbn [mbind option_bind]. apply IH'.
Qed.

Lemma bc_cells_eq n i s r ia t :
  n = length r → (∀ t, t < length r → b2c !! (i + t) = r !! t) → s ≤ i →
  (∀ t c, r !! t = Some c → cs !! (i - s + t) = Some c) →
  bc_count_cells b p loc b2c pc2c c2c n i s ia = count_all ia (fst <$> flat_map bkeys r) ∧
  bc_push_cells b p loc b2c pc2c c2c n i t = push_all t (flat_map bkeys r).
Proof.
  revert n i ia t. induction r as [|c r IH]; intros n i ia t -> Hi Hs Hr; [done|].
  cbn [length bc_count_cells bc_push_cells].
  pose proof (Hi 0 ltac:(simpl; lia)) as E. rewrite Nat.add_0_r in E. rewrite E.
  cbn [lookup list_lookup mbind option_bind].
  pose proof (Hr 0 c eq_refl) as Hc0. rewrite Nat.add_0_r in Hc0.
  assert (Hc : c ∈ cs) by (by eapply elem_of_list_lookup_2).
  rewrite (Hloc _ _ Hc0). cbn [mbind option_bind]. rewrite decide_True by done.
  destruct (Hconn c (Hlt c Hc)) as (js & je & Ejs & Eje & Hsl). rewrite Ejs, Eje. cbn [mbind option_bind].
  pose proof (slice_length _ _ _ _ Hsl) as Hlen. rewrite <- Hlen.
  assert (Hj : ∀ t, t < length (eff c) → c2c !! (js + t) = eff c !! t).
  { intros u Hu. rewrite (slice_lookup _ _ _ _ u Hsl) by lia. done. }
  rewrite bc_count_eq, bc_push_eq; try done.
  2:{ intros d Hd. by apply (Heff c). } 2:{ intros d Hd. by apply (Heff c). }
  cbn [flat_map]. rewrite fmap_app, count_all_app, push_all_app. split.
  - fold (bkeys c). destruct (count_all ia (bkeys c).*1) as [ia1|]; [|done]. cbn [mbind option_bind].
    apply (IH (length r) (S i) ia1 t); [done| |lia|].
    + intros u Hu. specialize (Hi (S u) ltac:(simpl; lia)). simpl in Hi. rewrite <- Hi. f_equal. lia.
    + intros u x Hu. rewrite <- (Hr (S u) x Hu). f_equal. lia.
  - fold (bkeys c). destruct (push_all t (bkeys c)) as [t1|]; [|done]. cbn [mbind option_bind].
    apply (IH (length r) (S i) ia t1); [done| |lia|].
    + intros u Hu. specialize (Hi (S u) ltac:(simpl; lia)). simpl in Hi. rewrite <- Hi. f_equal. lia.
    + intros u x Hu. rewrite <- (Hr (S u) x Hu). f_equal. lia.
Qed.

Lemma bkeys_rows : rows_of (length cs) (flat_map bkeys cs) = bgraph.
Proof.
  assert (E : flat_map bkeys cs = concat (imap (λ j r, pair (0 + j) <$> r) bgraph)).
  { unfold bgraph. rewrite flat_map_concat_map. f_equal.
    change (map bkeys cs) with (bkeys <$> cs).
    apply list_eq. intros i. rewrite list_lookup_imap, !list_lookup_fmap.
    destruct (cs !! i) as [c|] eqn:Hi; [|done]. simpl. f_equal. unfold bkeys, brow.
    rewrite <- list_fmap_compose. apply list_fmap_ext. intros _ d _. simpl. f_equal.
    unfold lidx. by rewrite (Hloc _ _ Hi). }
  rewrite E. apply list_eq. intros i. unfold rows_of. rewrite list_lookup_fmap.
  destruct (decide (i < length cs)) as [Hi|Hi].
  - rewrite lookup_seq_lt by lia. simpl.
    destruct (lookup_lt_is_Some_2 bgraph i) as [r Hr]. { unfold bgraph. by rewrite fmap_length. }
    rewrite Hr. f_equal. apply (concat_imap_row_of bgraph 0 i r Hr).
  - rewrite lookup_seq_ge by lia. simpl. symmetry. apply lookup_ge_None. unfold bgraph. rewrite fmap_length. lia.
Qed.

Lemma create_block_conns_eq ia ja :
  length cs < length ia → length (concat bgraph) ≤ length ja →
  create_block_conns b p loc pb2c b2c pc2c c2c ia ja
  = Some (starts 0 bgraph ++ drop (S (length cs)) ia, concat bgraph ++ drop (length (concat bgraph)) ja).
Proof.
  intros Hia Hja. unfold create_block_conns. pose proof Hblk as (_ & _ & _ & Hr).
  destruct (Hr b cs Hcs) as (s & e & Es & Ee & Hle & Hs). rewrite Es, Ee. cbn [mbind option_bind].
  pose proof (slice_length _ _ _ _ Hs) as Hlen. rewrite <- Hlen.
  rewrite zero_loop_Some by lia. cbn [mbind option_bind]. rewrite take_0. simpl (_ ++ _).
  assert (Hi : ∀ t, t < length cs → b2c !! (s + t) = cs !! t).
  { intros t Ht. rewrite (slice_lookup _ _ _ _ t Hs) by lia. done. }
  assert (Hr' : ∀ t c, cs !! t = Some c → cs !! (s - s + t) = Some c).
  { intros t c. by rewrite Nat.sub_diag. }
  assert (Hk : Forall (λ kv, kv.1 < length cs) (flat_map bkeys cs)).
  { apply Forall_forall. intros kv Hkv. apply elem_of_list_In, in_flat_map in Hkv as (c & Hc & Hkv).
    apply elem_of_list_In in Hc. apply elem_of_list_In in Hkv. unfold bkeys in Hkv.
    apply elem_of_list_fmap in Hkv as (d & -> & _). cbn [fst].
    apply elem_of_list_lookup in Hc as [t Ht]. unfold lidx. rewrite (Hloc _ _ Ht). simpl. by eapply lookup_lt_Some. }
  rewrite (proj1 (bc_cells_eq _ s s cs _ ([],[]) eq_refl Hi ltac:(lia) Hr')).
  destruct (count_scan (length cs) (flat_map bkeys cs).*1 (flat_map bkeys cs)) as (ia1 & Eia & ->).
  { by apply Forall_fmap. } { done. }
  rewrite (count_all_frame _ _ _ _ Eia). cbn [mbind option_bind lookup list_lookup app].
  rewrite decide_True by done.
  set (fc := (λ i, length (row_of (flat_map bkeys cs) i)) <$> seq 0 (length cs)).
  assert (Hfc : length fc = length cs) by (unfold fc; by rewrite fmap_length, seq_length).
  pose proof (scan_loop_correct fc) as HS. rewrite Hfc in HS.
  apply (scan_loop_frame _ _ _ _ (drop (length cs + 1) ia)) in HS. cbn [app] in HS. rewrite HS.
  cbn [mbind option_bind].
  rewrite (proj2 (bc_cells_eq _ s s cs [] _ eq_refl Hi ltac:(lia) Hr')).
  assert (Hlg : length (concat bgraph) = length (flat_map bkeys cs)).
  { rewrite <- bkeys_rows, concat_rows_length by done. by apply off_total. }
  pose proof (push_all_correct (length cs) (flat_map bkeys cs) Hk (sum_list fc)
    (take (length (concat bgraph)) ja)) as HP.
  rewrite take_length in HP. specialize (HP ltac:(lia)). fold fc in HP.
  apply (push_all_frame _ _ _ _ _ (drop (length cs + 1) ia) (drop (length (concat bgraph)) ja)) in HP.
  rewrite take_drop in HP. cbn [app] in HP.
  change (match offs 0 fc ++ drop (length cs + 1) ia with l => l end) with (offs 0 fc ++ drop (length cs + 1) ia).
  rewrite HP. cbn [mbind option_bind]. rewrite bkeys_rows.
  rewrite upd_Some by (simpl; lia). cbn [mbind option_bind].
  replace (length cs + 1) with (S (length cs)) by lia.
  do 2 f_equal. by destruct bgraph.
Qed.

Lemma bgraph_edge i j :
  edge bgraph i j ↔ ∃ u v, cs !! i = Some u ∧ cs !! j = Some v ∧ v ∈ eff u.
Proof.
  unfold edge, bgraph. split.
  - intros (r & Hr & Hj). rewrite list_lookup_fmap in Hr. destruct (cs !! i) as [u|] eqn:Hu; [|done].
    simpl in Hr. simplify_eq. unfold brow in Hj. apply elem_of_list_fmap in Hj as (v & -> & Hv).
    apply elem_of_list_filter in Hv as [Hv Hve]. exists u, v. split_and!; [done| |done].
    apply elem_of_list_lookup in Hv as [t Ht]. unfold lidx. by rewrite (Hloc _ _ Ht).
  - intros (u & v & Hu & Hv & Hve). exists (brow u). split; [by rewrite list_lookup_fmap, Hu|].
    unfold brow. apply elem_of_list_fmap. exists v. split; [unfold lidx; by rewrite (Hloc _ _ Hv)|].
    apply elem_of_list_filter. split; [by eapply elem_of_list_lookup_2|done].
Qed.

Lemma bgraph_self_first :
  (∀ c t, c ∈ cs → eff c !! t = Some c → t = 0) → self_first bgraph.
Proof.
  intros Hsf u r t Hu Ht. unfold bgraph in Hu. rewrite list_lookup_fmap in Hu.
  destruct (cs !! u) as [c|] eqn:Hc; [|done]. simpl in Hu. simplify_eq.
  assert (Hcin : c ∈ cs) by (by eapply elem_of_list_lookup_2).
  unfold brow in Ht. rewrite list_lookup_fmap in Ht.
  destruct (filter (λ d, d ∈ cs) (eff c) !! t) as [d|] eqn:Hd; [|done]. simpl in Ht. simplify_eq.
  assert (d ∈ cs) as Hdc. { apply elem_of_list_lookup_2 in Hd. by apply elem_of_list_filter in Hd as [? _]. }
  assert (d = c) as ->.
  { apply elem_of_list_lookup in Hdc as [k Hk]. unfold lidx in Hc. rewrite (Hloc _ _ Hk) in Hc. simpl in Hc. congruence. }
  (* the cell occurs in its own row only first, so also after filtering *)
  specialize (Hsf c). destruct (eff c) as [|x l]; [done|].
  assert (Hnl : c ∉ l).
  { intros [k Hk]%elem_of_list_lookup. specialize (Hsf (S k) Hcin Hk). lia. }
  rewrite filter_cons in Hd. destruct (decide (x ∈ cs)).
  - destruct t as [|t]; [done|]. simpl in Hd. exfalso. apply Hnl. apply elem_of_list_lookup_2 in Hd.
    by apply elem_of_list_filter in Hd as [_ ?].
  - exfalso. apply Hnl. apply elem_of_list_lookup_2 in Hd. by apply elem_of_list_filter in Hd as [_ ?].
Qed.
End block.

(** ** Colours of one block *)
Lemma two_way_components rows ia ja xi xj color0 xc work0 xw :
  let lk u v := edge rows u v ∧ edge rows v u in
  holds_rows ia ja rows → in_range rows → self_first rows →
  undirected rows ∨ (∀ w, ¬ edge rows 0 w) ∧ (∀ u v, edge rows u v → v ≠ 0 → edge rows v u) →
  length color0 = length rows → length work0 = 2 * length rows →
  ∃ m ncol color,
    (∀ fuel, m ≤ fuel → dfs_run fuel (length rows) (ia ++ xi) (ja ++ xj) (color0 ++ xc) (work0 ++ xw)
                        = Some (ncol, color ++ xc)) ∧
    length color = length rows ∧
    (∀ v x, color !! v = Some x → (0 ≤ x < Z.of_nat ncol)%Z) ∧
    (∀ u v x y, color !! u = Some x → color !! v = Some y → (x = y ↔ rtc lk u v)) ∧
    (∀ k, k < ncol → ∃ f, color !! f = Some (Z.of_nat k)) ∧
    (0 < length rows → color !! 0 = Some 0%Z).
Proof.
  intros lk Hr Hrange Hself Hone Hc Hw.
  destruct (C10_directed rows ia ja xi xj color0 xc work0 xw Hr Hrange Hself Hc Hw)
    as (m & seeds & color & Hrun & Hlc & Hcol & Hseed).
  assert (Hsym : ∀ u v, rtc lk u v → rtc lk v u).
  { induction 1 as [|a b c [? ?] _ IH]; [done|]. eapply rtc_r; [done|]. by split. }
  assert (HlkE : ∀ u v, rtc lk u v → rtc (edge rows) u v).
  { induction 1 as [|a b c [? ?] _ IH]; [done|]. by eapply rtc_l. }
  assert (Hcol0 : 0 < length rows → color !! 0 = Some 0%Z ∧ seeds !! 0 = Some 0).
  { intros Hpos. destruct (lookup_lt_is_Some_2 color 0) as [x Hx]; [lia|].
    destruct (Hcol 0 x Hx) as (k & f & -> & Hf & _).
    destruct (lookup_lt_is_Some_2 seeds 0) as [f0 Hf0]. { apply lookup_lt_Some in Hf. lia. }
    destruct (Hseed 0 f0 Hf0) as [Hf0c Hlt]. destruct f0 as [|f0]; [done|].
    destruct (Hlt 0 ltac:(lia)) as (j & ? & ? & _). lia. }
  assert (Hmin : ∀ u v x y, color !! u = Some x → color !! v = Some y → rtc lk u v → x = y).
  { intros u v x y Hx Hy Huv. destruct (Hcol u x Hx) as (k & f & -> & Hf & Hfu & Hkm).
    destruct (Hcol v y Hy) as (l & g & -> & Hg & Hgv & Hlm).
    destruct (decide (k < l)) as [Hlt|Hge].
    { exfalso. eapply (Hlm k f); [done|done|]. etrans; [done|]. by apply HlkE. }
    destruct (decide (l < k)) as [Hlt|Hge']; [|lia].
    exfalso. eapply (Hkm l g); [done|done|]. etrans; [done|]. by apply HlkE, Hsym. }
  exists m, (length seeds), color. split_and!; [done|done| | | |].
  - intros v x Hx. destruct (Hcol v x Hx) as (k & f & -> & Hf & _). pose proof (lookup_lt_Some _ _ _ Hf). lia.
  - intros u v x y Hx Hy. split; [|by apply Hmin]. intros <-.
    destruct (Hcol u x Hx) as (k & f & -> & Hf & Hfu & _).
    destruct (Hcol v _ Hy) as (l & g & El & Hg & Hgv & _).
    assert (l = k) as -> by lia. assert (g = f) as -> by congruence. clear El Hg.
    destruct Hone as [Hund|[Hsink Hund]].
    + assert (HE : ∀ a b, rtc (edge rows) a b → rtc lk a b).
      { induction 1 as [|a b c Hab _ IH]; [done|]. eapply rtc_l; [|done]. split; [done|]. by apply Hund. }
      etrans; [apply Hsym|]; by apply HE.
    + assert (HE : ∀ b, rtc (edge rows) f b → b ≠ 0 → rtc lk f b).
      { apply (rtc_ind_r (λ b, b ≠ 0 → rtc lk f b) f); [done|].
        intros b c Hb Hbc IH Hc0. assert (b ≠ 0) as Hb0. { intros ->. by eapply Hsink. }
        eapply rtc_r; [by apply IH|]. split; [done|]. by apply Hund. }
      destruct (Hcol0 ltac:(apply lookup_lt_Some in Hx; lia)) as [Hc00 Hs0].
      assert (H0 : ∀ w, color !! w = Some 0%Z → w = 0).
      { intros w Hw0. destruct (Hcol w 0%Z Hw0) as (k' & f' & Hk' & Hf' & Hfw & _).
        assert (k' = 0) as -> by lia. rewrite Hs0 in Hf'. simplify_eq.
        apply rtc_inv in Hfw as [<-|(y & Hy' & _)]; [done|]. by apply Hsink in Hy'. }
      destruct (decide (k = 0)) as [->|Hk].
      * rewrite (H0 u), (H0 v) by done. done.
      * assert (u ≠ 0) by (intros ->; rewrite Hc00 in Hx; simplify_eq; lia).
        assert (v ≠ 0) by (intros ->; rewrite Hc00 in Hy; simplify_eq; lia).
        etrans; [apply Hsym|]; by apply HE.
  - intros k Hk. destruct (lookup_lt_is_Some_2 seeds k Hk) as [f Hf].
    destruct (Hseed k f Hf) as [Hfc _]. by exists f.
  - intros Hpos. by apply Hcol0.
Qed.

(** ** New numbers *)
Lemma renumber_Some cs col xc b2c i s maxblk ret p :
  length cs = length col → s ≤ i → NoDup cs →
  (∀ t, t < length cs → b2c !! (i + t) = cs !! t) →
  (∀ t x, col !! t = Some x → xc !! (i - s + t) = Some x) →
  (∀ c, c ∈ cs → c < length p) →
  ∃ p', renumber (length cs) i s b2c xc maxblk ret p = Some p' ∧ length p' = length p ∧
    (∀ t c x, cs !! t = Some c → col !! t = Some x →
       p' !! c = if decide (x > 0)%Z then Some (Z.to_nat (maxblk + ret + x)) else p !! c) ∧
    (∀ c, c ∉ cs → p' !! c = p !! c).
Proof.
  revert col i p. induction cs as [|c cs IH]; intros col i p Hl Hs Hnd Hi Hx Hlt; cbn [length renumber].
  - exists p. split_and!; done.
  - destruct col as [|x col]; [done|]. simpl in Hl. simplify_eq.
    pose proof (Hx 0 x eq_refl) as Hx0. rewrite Nat.add_0_r in Hx0. rewrite Hx0. cbn [mbind option_bind].
    apply NoDup_cons in Hnd as [Hnc Hnd].
    pose proof (Hi 0 ltac:(simpl; lia)) as E. rewrite Nat.add_0_r in E. simpl in E.
    assert (Hc : c < length p) by (apply Hlt; left).
    set (p1 := if decide (x > 0)%Z then <[c:=Z.to_nat (maxblk + ret + x)]> p else p).
    assert (E1 : (if decide (x > 0)%Z then c ← b2c !! i; upd p c (Z.to_nat (maxblk + ret + x)) else Some p) = Some p1).
    { unfold p1. destruct (decide (x > 0)%Z); [|done]. rewrite E. cbn [mbind option_bind]. by rewrite upd_Some. }
    rewrite E1. cbn [mbind option_bind].
    assert (Hl1 : length p1 = length p) by (unfold p1; case_decide; rewrite ?insert_length; done).
    destruct (IH col (S i) p1) as (p' & E' & Hl' & H1 & H2).
    + done. + lia. + done.
    + intros t Ht. specialize (Hi (S t) ltac:(simpl; lia)). simpl in Hi. rewrite <- Hi. f_equal. lia.
    + intros t y Hy. rewrite <- (Hx (S t) y Hy). f_equal. lia.
    + intros d Hd. rewrite Hl1. apply Hlt. by right.
    + exists p'. split_and!; [done|lia| |].
      * intros [|t] d y Hd Hy; simpl in Hd, Hy.
        -- simplify_eq. rewrite H2 by done. unfold p1. case_decide; [|done]. by rewrite list_lookup_insert.
        -- rewrite (H1 t d y Hd Hy). destruct (decide (y > 0)%Z); [done|].
           unfold p1. case_decide; [|done]. rewrite list_lookup_insert_ne; [done|].
           intros ->. apply Hnc. by eapply elem_of_list_lookup_2.
      * intros d Hd. apply not_elem_of_cons in Hd as [? ?]. rewrite H2 by done.
        unfold p1. case_decide; [|done]. by rewrite list_lookup_insert_ne by done.
Qed.

(** ** The loop over the blocks *)
Section loop.
Variables (p0 loc pb2c b2c pc2c c2c : list nat).
Variable eff : nat → list nat.
Let nblk := Z.to_nat (max_block p0 + 1).
Let blocks := cells_of p0 <$> seq 0 nblk.
Variables maxc maxn : nat.
Hypothesis Hblk : holds_rows pb2c b2c blocks.
Hypothesis Hconn : conn_ok (length p0) eff pc2c c2c.
Hypothesis Hloc : ∀ b t c, b < nblk → cells_of p0 b !! t = Some c → loc !! c = Some t.
Hypothesis Hrange : ∀ c d, c < length p0 → d ∈ eff c → d < length p0.
Hypothesis Hself : ∀ c t, c < length p0 → eff c !! t = Some c → t = 0.
Hypothesis Hone : (∀ c d, d ∈ eff c → c ∈ eff d) ∨
  (eff 0 = [] ∧ ∀ c d, d ∈ eff c → d ≠ 0 → c ∈ eff d).
Hypothesis Hmaxc : ∀ b, b < nblk → length (cells_of p0 b) ≤ maxc.
Hypothesis Hmaxn : ∀ b, b < nblk →
  length (filter (λ kv, p0 !! kv.2 = Some b) (flat_map (λ c, (λ d, (c, d)) <$> eff c) (cells_of p0 b))) ≤ maxn.

(** Two cells of one block are joined when each is in the row of the other. *)
Definition joined (u v : nat) : Prop := p0 !! u = p0 !! v ∧ v ∈ eff u ∧ u ∈ eff v.

Lemma cells_of_elem b c : c ∈ cells_of p0 b ↔ p0 !! c = Some b.
Proof.
  unfold cells_of. rewrite elem_of_list_filter, elem_of_seq. split; [naive_solver|].
  intros H. split; [done|]. apply lookup_lt_Some in H. lia.
Qed.
Lemma cells_of_NoDup b : NoDup (cells_of p0 b).
Proof. apply NoDup_filter, NoDup_seq. Qed.
Lemma blocks_lookup b : b < nblk → blocks !! b = Some (cells_of p0 b).
Proof. intros H. unfold blocks. by rewrite list_lookup_fmap, lookup_seq_lt. Qed.

(** What the iterations for the blocks from [b] on do to the vector [p]. *)
Definition after (b : nat) (p : list nat) (ret : Z) (p' : list nat) (ret' : Z) : Prop :=
  length p' = length p ∧ (ret ≤ ret')%Z ∧
  (∀ c k, p0 !! c = Some k → k < b → p' !! c = p !! c) ∧
  (∀ c k, p0 !! c = Some k → b ≤ k →
     p' !! c = Some k ∨ ∃ x, p' !! c = Some (Z.to_nat x) ∧ (max_block p0 + ret < x ≤ max_block p0 + ret')%Z) ∧
  (∀ c d k l, p0 !! c = Some k → p0 !! d = Some l → b ≤ k → b ≤ l →
     p' !! c = p' !! d ↔ rtc joined c d) ∧
  (∀ x, (max_block p0 + ret < x ≤ max_block p0 + ret')%Z → ∃ c k, p0 !! c = Some k ∧ b ≤ k ∧ p' !! c = Some (Z.to_nat x)) ∧
  (∀ k c, b ≤ k → cells_of p0 k !! 0 = Some c → p' !! c = Some k).

Lemma joined_block u v : rtc joined u v → p0 !! u = p0 !! v.
Proof. induction 1 as [|a c d [H _] _ IH]; [done|]. congruence. Qed.

Lemma bgraph_joined b i j u v :
  b < nblk → cells_of p0 b !! i = Some u → cells_of p0 b !! j = Some v →
  let G := bgraph loc (cells_of p0 b) eff in
  rtc (λ x y, edge G x y ∧ edge G y x) i j ↔ rtc joined u v.
Proof.
  intros Hb Hi Hj G.
  assert (HE : ∀ x y, edge G x y ↔ ∃ u v, cells_of p0 b !! x = Some u ∧ cells_of p0 b !! y = Some v ∧ v ∈ eff u).
  { intros x y. apply bgraph_edge. intros t c Ht. by apply (Hloc b t c Hb). }
  assert (Hin : ∀ t w, cells_of p0 b !! t = Some w → p0 !! w = Some b).
  { intros t w Ht. apply cells_of_elem. by eapply elem_of_list_lookup_2. }
  split.
  - intros H. revert u Hi. induction H as [x|x y z [H1 H2] _ IH]; intros u Hi.
    + assert (u = v) as -> by congruence. done.
    + apply HE in H1 as (a & c & Ha & Hc & Hac). apply HE in H2 as (c' & a' & Hc' & Ha' & Hca).
      simplify_eq. eapply rtc_l; [|by apply IH]. split; [|done]. by rewrite (Hin _ _ Ha), (Hin _ _ Hc).
  - intros H. revert i Hi. induction H as [x|x y z (H0 & H1 & H2) _ IH]; intros i Hi.
    + assert (i = j) as ->; [|done]. eapply NoDup_lookup; [apply (cells_of_NoDup b)|done|done].
    + assert (y ∈ cells_of p0 b) as [k Hk]%elem_of_list_lookup.
      { apply cells_of_elem. rewrite <- H0. by eapply Hin. }
      eapply rtc_l; [|by apply (IH Hj k)]. split; apply HE; eauto 10.
Qed.

Lemma split_loop_Some n b ia ja colour work ret p :
  b + n = nblk → length p = length p0 → (0 ≤ ret)%Z →
  length ia = maxc + 1 → length ja = maxn → length colour = maxc → length work = 2 * maxc →
  (∀ c k, p0 !! c = Some k → b ≤ k → p !! c = Some k) →
  (∀ c k, p0 !! c = Some k → k < b → ∃ q, p !! c = Some q ∧ (q < b ∨ nblk ≤ q)) →
  ∃ m ret' p', (∀ fuel, m ≤ fuel →
      split_loop fuel n b (max_block p0) loc pb2c b2c pc2c c2c ia ja colour work ret p = Some (ret', p')) ∧
    after b p ret p' ret'.
Proof.
  revert b ia ja colour work ret p.
  induction n as [|n IH]; intros b ia ja colour work ret p Hb Hlp Hret Hia Hja Hcl Hwk Hge Hlt.
  { exists 0, ret, p. split; [done|]. unfold after. split_and!; [done|lia|done| | | |].
    - intros c k Hk Hbk. left. by apply Hge.
    - intros c d k l Hk Hl Hbk Hbl. exfalso.
      pose proof (max_block_lt p0) as Hm. rewrite Forall_forall in Hm.
      pose proof (Hm k ltac:(by eapply elem_of_list_lookup_2)). fold nblk in H. lia.
    - intros x Hx. lia.
    - intros k c Hk Hc. exfalso. apply elem_of_list_lookup_2 in Hc. apply cells_of_elem in Hc.
      pose proof (max_block_lt p0) as Hm. rewrite Forall_forall in Hm.
      pose proof (Hm k ltac:(by eapply elem_of_list_lookup_2)). fold nblk in H. lia. }
  set (cs := cells_of p0 b).
  assert (Hbn : b < nblk) by lia.
  pose proof (blocks_lookup b Hbn) as Hcs. fold cs in Hcs.
  assert (Hcsp : ∀ c, c ∈ cs ↔ p0 !! c = Some b) by apply cells_of_elem.
  assert (Hcslt : ∀ c, c ∈ cs → c < length p0).
  { intros c Hc. apply Hcsp in Hc. by eapply lookup_lt_Some. }
  assert (Hpb : ∀ d, d < length p0 → p !! d = Some b ↔ d ∈ cs).
  { intros d Hd. rewrite Hcsp. destruct (lookup_lt_is_Some_2 p0 d Hd) as [k Hk].
    destruct (decide (b ≤ k)) as [Hbk|Hbk].
    - rewrite (Hge d k Hk Hbk), Hk. done.
    - destruct (Hlt d k Hk ltac:(lia)) as (q & Hq & Hq'). rewrite Hq, Hk. split; intros; simplify_eq; lia. }
  assert (Hconn' : conn_ok (length p) eff pc2c c2c) by (by rewrite Hlp).
  assert (Hloc' : ∀ t c, cs !! t = Some c → loc !! c = Some t) by (intros; by eapply Hloc).
  assert (Heff' : ∀ c d, c ∈ cs → d ∈ eff c → d < length p ∧ (p !! d = Some b ↔ d ∈ cs)).
  { intros c d Hc Hd. pose proof (Hrange c d (Hcslt c Hc) Hd). split; [lia|]. by apply Hpb. }
  assert (Hcslt' : ∀ c, c ∈ cs → c < length p) by (intros c Hc; rewrite Hlp; by apply Hcslt).
  set (G := bgraph loc cs eff).
  assert (HlG : length G = length cs) by (unfold G, bgraph; by rewrite fmap_length).
  assert (HGn : length (concat G) ≤ maxn).
  { specialize (Hmaxn b Hbn). fold cs in Hmaxn. etrans; [|exact Hmaxn].
    unfold G, bgraph. generalize cs at 2 3. intros l.
    induction l as [|c l IHl]; [done|]. rewrite fmap_cons. cbn [concat flat_map].
    rewrite filter_app, !app_length. apply Nat.add_le_mono; [|done].
    unfold brow. rewrite fmap_length. clear IHl.
    induction (eff c) as [|d e IHe]; [done|]. rewrite fmap_cons, !filter_cons. cbn [snd].
    destruct (decide (d ∈ cs)) as [Hd|Hd]; destruct (decide (p0 !! d = Some b)) as [Hp|Hp];
      rewrite ?Hcsp in Hd; simpl; try done; lia. }
  pose proof (create_block_conns_eq b p loc pb2c b2c pc2c c2c blocks cs eff Hblk Hcs Hconn' Hcslt' Hloc' Heff' ia ja)
    as Hcb. fold G in Hcb.
  pose proof (Hmaxc b Hbn) as Hmc. fold cs in Hmc.
  specialize (Hcb ltac:(lia) ltac:(lia)).
  (* the colours *)
  assert (HGE : ∀ i j, edge G i j ↔ ∃ u v, cs !! i = Some u ∧ cs !! j = Some v ∧ v ∈ eff u).
  { intros i j. by apply bgraph_edge. }
  destruct (two_way_components G (starts 0 G) (concat G) (drop (S (length cs)) ia) (drop (length (concat G)) ja)
      (take (length cs) colour) (drop (length cs) colour) (take (2 * length cs) work) (drop (2 * length cs) work))
    as (m1 & ncol & col & Hrun & Hlcol & Hval & Hsame & Hall & Hzero).
  { apply starts_holds. }
  { intros i j Hij. apply HGE in Hij as (u & v & _ & Hv & _). rewrite HlG. by eapply lookup_lt_Some. }
  { apply bgraph_self_first; [done|]. intros c t Hc. apply Hself. by apply Hcslt. }
  { destruct Hone as [Hs|[Hs0 Hs]].
    - left. intros i j Hij. apply HGE in Hij as (u & v & Hu & Hv & Hvu). apply HGE. eauto 10.
    - destruct (decide (0 ∈ cs)) as [H0|H0].
      + right.
        assert (H00 : cs !! 0 = Some 0).
        { unfold cs, cells_of in *. apply elem_of_list_filter in H0 as [H0 H0s].
          apply elem_of_seq in H0s. destruct (length p0) as [|k]; [lia|]. cbn [seq]. rewrite filter_cons, decide_True by done. done. }
        split.
        * intros w Hw. apply HGE in Hw as (u & v & Hu & Hv & Hvu). simplify_eq. rewrite Hs0 in Hvu.
          by apply elem_of_nil in Hvu.
        * intros i j Hij Hj0. apply HGE in Hij as (u & v & Hu & Hv & Hvu). apply HGE.
          exists v, u. split_and!; [done|done|]. apply Hs; [done|]. intros ->. apply Hj0.
          eapply NoDup_lookup; [apply (cells_of_NoDup b)|done|done].
      + left. intros i j Hij. apply HGE in Hij as (u & v & Hu & Hv & Hvu). apply HGE.
        exists v, u. split_and!; [done|done|]. apply Hs; [done|]. intros ->. apply H0. by eapply elem_of_list_lookup_2. }
  { rewrite take_length. lia. }
  { rewrite take_length. lia. }
  rewrite !take_drop, HlG in Hrun. rewrite HlG in Hlcol, Hzero.
  assert (Hjoin : ∀ i j u v x y, cs !! i = Some u → cs !! j = Some v → col !! i = Some x → col !! j = Some y →
      x = y ↔ rtc joined u v).
  { intros i j u v x y Hu Hv Hx Hy. rewrite (Hsame i j x y Hx Hy). by apply (bgraph_joined b). }
  (* new numbers *)
  pose proof Hblk as (_ & _ & _ & Hrow). destruct (Hrow b cs Hcs) as (s & e & Es & Ee & Hle & Hsl).
  pose proof (slice_length _ _ _ _ Hsl) as Hlen.
  destruct (renumber_Some cs col (col ++ drop (length cs) colour) b2c s s (max_block p0) ret p)
    as (p1 & Ep1 & Hl1 & H1 & H2).
  { done. } { lia. } { apply cells_of_NoDup. }
  { intros t Ht. rewrite (slice_lookup _ _ _ _ t Hsl) by lia. done. }
  { intros t x Hx. rewrite Nat.sub_diag. by apply lookup_app_Some. }
  { done. }
  set (q := if decide (1 < ncol) then p1 else p).
  set (ret1 := if decide (1 < ncol) then (ret + (Z.of_nat ncol - 1))%Z else ret).
  assert (Hlq : length q = length p0) by (unfold q; case_decide; lia).
  assert (Hr1 : (ret ≤ ret1)%Z) by (unfold ret1; case_decide; lia).
  pose proof (max_block_ge p0) as Hmb.
  (* cells of this block after the iteration *)
  assert (Hq : ∀ t c x, cs !! t = Some c → col !! t = Some x →
      q !! c = Some (if decide (x > 0)%Z then Z.to_nat (max_block p0 + ret + x) else b) ∧ (0 ≤ x)%Z ∧
      (x > 0 → max_block p0 + ret < max_block p0 + ret + x ≤ max_block p0 + ret1)%Z).
  { intros t c x Ht Hx. pose proof (Hval t x Hx) as Hxv. unfold q, ret1.
    assert (Hpc : p !! c = Some b).
    { apply Hge; [|done]. apply Hcsp. by eapply elem_of_list_lookup_2. }
    destruct (decide (1 < ncol)) as [Hn|Hn].
    - rewrite (H1 t c x Ht Hx). split_and!; [|lia|intros; lia]. case_decide; done.
    - assert (x = 0)%Z as -> by lia. split_and!; [|lia|intros; lia].
      by rewrite decide_False by lia. }
  assert (Hqo : ∀ c, c ∉ cs → q !! c = p !! c).
  { intros c Hc. unfold q. case_decide; [|done]. by apply H2. }
  assert (Hcolt : ∀ t c, cs !! t = Some c → ∃ x, col !! t = Some x).
  { intros t c Ht. apply lookup_lt_is_Some_2. rewrite Hlcol. by eapply lookup_lt_Some. }
  destruct (dfs_call_run m1 (length cs) (starts 0 G ++ drop (S (length cs)) ia)
     (concat G ++ drop (length (concat G)) ja) colour work ncol _ (Hrun m1 ltac:(lia))) as (wk & Hwkr & Hlwk).
  (* cells of block b in later blocks' terms *)
  destruct (IH (S b) (starts 0 G ++ drop (S (length cs)) ia) (concat G ++ drop (length (concat G)) ja)
      (col ++ drop (length cs) colour) wk ret1 q) as (m2 & ret2 & p2 & Hrun2 & Haft).
  { lia. } { done. } { lia. }
  { rewrite app_length, starts_length, drop_length. lia. }
  { rewrite app_length, drop_length. lia. }
  { rewrite app_length, drop_length. lia. }
  { lia. }
  { intros c k Hk Hbk. rewrite Hqo; [apply Hge; [done|lia]|]. rewrite Hcsp, Hk. intros ?; simplify_eq; lia. }
  { intros c k Hk Hkb. destruct (decide (c ∈ cs)) as [Hc|Hc].
    - apply elem_of_list_lookup in Hc as [t Ht]. destruct (Hcolt t c Ht) as [x Hx].
      destruct (Hq t c x Ht Hx) as (E & Hx0 & Hxr). rewrite E. eexists. split; [done|].
      case_decide; [|lia]. right. unfold nblk. specialize (Hxr ltac:(lia)). lia.
    - rewrite Hqo by done. destruct (decide (k = b)) as [->|Hne]; [by rewrite Hcsp in Hc|].
      destruct (Hlt c k Hk ltac:(lia)) as (y & Hy & Hy'). exists y. split; [done|]. lia. }
  exists (Nat.max m1 m2), ret2, p2. split.
  { intros fuel Hf. cbn [split_loop]. rewrite Hcb. cbn [mbind option_bind]. rewrite Ee, Es. cbn [mbind option_bind].
    rewrite <- Hlen. rewrite (dfs_call_mono m1 fuel _ _ _ _ _ _ ltac:(lia) Hwkr). cbn [mbind option_bind].
    assert (E : (if decide (1 < ncol)
       then p ← renumber (length cs) s s b2c (col ++ drop (length cs) colour) (max_block p0) ret p;
            Some ((ret + (Z.of_nat ncol - 1))%Z, p)
       else Some (ret, p)) = Some (ret1, q)).
    { unfold ret1, q. case_decide; [|done]. by rewrite Ep1. }
    rewrite E. cbn [mbind option_bind]. apply Hrun2. lia. }
  destruct Haft as (A1 & A2 & A3 & A4 & A5 & A6 & A7).
  (* cells of block b keep their value from now on *)
  assert (Hb2 : ∀ t c x, cs !! t = Some c → col !! t = Some x →
      p2 !! c = Some (if decide (x > 0)%Z then Z.to_nat (max_block p0 + ret + x) else b)).
  { intros t c x Ht Hx. rewrite (A3 c b); [by eapply Hq| |lia]. apply Hcsp. by eapply elem_of_list_lookup_2. }
  unfold after. split_and!.
  - lia.
  - lia.
  - intros c k Hk Hkb. rewrite (A3 c k Hk) by lia. apply Hqo. rewrite Hcsp, Hk. intros ?; simplify_eq; lia.
  - intros c k Hk Hbk. destruct (decide (k = b)) as [->|Hne].
    + apply Hcsp in Hk. apply elem_of_list_lookup in Hk as [t Ht]. destruct (Hcolt t c Ht) as [x Hx].
      rewrite (Hb2 t c x Ht Hx). destruct (Hq t c x Ht Hx) as (_ & Hx0 & Hxr).
      case_decide; [|by left]. right. eexists. split; [done|]. specialize (Hxr ltac:(lia)). lia.
    + destruct (A4 c k Hk ltac:(lia)) as [?|(x & ? & ?)]; [by left|]. right. exists x. split; [done|]. lia.
  - assert (Hmix : ∀ c d l, p0 !! c = Some b → p0 !! d = Some l → S b ≤ l → p2 !! c ≠ p2 !! d).
    { intros c d l Hc Hd Hl. apply Hcsp in Hc. apply elem_of_list_lookup in Hc as [t Ht].
      destruct (Hcolt t c Ht) as [x Hx]. rewrite (Hb2 t c x Ht Hx). destruct (Hq t c x Ht Hx) as (_ & Hx0 & Hxr).
      pose proof (max_block_bound p0) as Hm. rewrite Forall_forall in Hm.
      pose proof (Hm l ltac:(by eapply elem_of_list_lookup_2)) as Hlm.
      destruct (A4 d l Hd Hl) as [->|(y & -> & Hy)]; intros Heq; simplify_eq; case_decide; lia. }
    intros c d k l Hk Hl Hbk Hbl.
    destruct (decide (k = b)) as [->|Hkn]; destruct (decide (l = b)) as [->|Hln].
    + apply Hcsp in Hk. apply elem_of_list_lookup in Hk as [t Ht]. destruct (Hcolt t c Ht) as [x Hx].
      apply Hcsp in Hl. apply elem_of_list_lookup in Hl as [t' Ht']. destruct (Hcolt t' d Ht') as [x' Hx'].
      rewrite (Hb2 t c x Ht Hx), (Hb2 t' d x' Ht' Hx'). rewrite <- (Hjoin t t' c d x x' Ht Ht' Hx Hx').
      destruct (Hq t c x Ht Hx) as (_ & Hx0 & Hxr). destruct (Hq t' d x' Ht' Hx') as (_ & Hx0' & Hxr').
      split; [|by intros ->]. intros Heq. simplify_eq. case_decide; case_decide; lia.
    + split.
      * intros Heq. exfalso. by eapply (Hmix c d l); [done|done|lia|].
      * intros HR. apply joined_block in HR. rewrite Hk, Hl in HR. simplify_eq.
    + split.
      * intros Heq. exfalso. by eapply (Hmix d c k); [done|done|lia|].
      * intros HR. apply joined_block in HR. rewrite Hk, Hl in HR. simplify_eq.
    + apply (A5 c d k l); [done|done|lia|lia].
  - intros x Hx. destruct (decide (max_block p0 + ret1 < x)%Z) as [Hgt|Hle'].
    + destruct (A6 x ltac:(lia)) as (c & k & Hk & Hbk & Hc). exists c, k. split_and!; [done|lia|done].
    + unfold ret1 in Hle'. destruct (decide (1 < ncol)) as [Hn|Hn]; [|lia].
      destruct (Hall (Z.to_nat (x - max_block p0 - ret))) as [t Ht]; [lia|].
      destruct (lookup_lt_is_Some_2 cs t) as [c Hc]. { rewrite <- Hlcol. by eapply lookup_lt_Some. }
      exists c, b. split_and!; [apply Hcsp; by eapply elem_of_list_lookup_2|lia|].
      rewrite (Hb2 t c _ Hc Ht). rewrite decide_True by lia. f_equal. f_equal. lia.
  - intros k c Hk Hc. destruct (decide (k = b)) as [->|Hne]; [|apply A7; [lia|done]].
    fold cs in Hc. assert (0 < length cs) as Hpos by (by eapply lookup_lt_Some).
    rewrite (Hb2 0 c 0%Z Hc (Hzero Hpos)). by rewrite decide_False by lia.
Qed.
End loop.
