(** C11: splitting of disconnected blocks (partition_split_disconnected in
    opm/core/pressure/msmfem/partition.c). *)
From stdpp Require Import relations.
From Verif Require Import Base CsrModel CsrSpec CsrProof PartModel PartProof DfsModel DfsProof DfsProps
  SplitModel SplitProof.

(** ** Specification vocabulary *)
(** A neighbourship lists pairs of cells; [None] is a missing neighbour. *)
Definition valid (nc : nat) (neigh : list (option nat * option nat)) : Prop :=
  ∀ c1 c2, (Some c1, Some c2) ∈ neigh → c1 < nc ∧ c2 < nc ∧ c1 ≠ c2.
(** Two cells of the same block that share a face. *)
Definition step (neigh : list (option nat * option nat)) (p : list nat) (u v : nat) : Prop :=
  p !! u = p !! v ∧ ((Some u, Some v) ∈ neigh ∨ (Some v, Some u) ∈ neigh).
(** What splitting should achieve: two cells end up in the same block exactly
    when they were in the same block and [joined]; a block keeps its number for
    the component of its first cell; [ret] new numbers are used, namely those
    after the largest old one. *)
Definition splits (joined : nat → nat → Prop) (p : list nat) (ret : Z) (p' : list nat) : Prop :=
  length p' = length p ∧
  (∀ u v, u < length p → v < length p → (p' !! u = p' !! v ↔ rtc joined u v)) ∧
  (∀ b c, p !! c = Some b → (∀ d, d < c → p !! d ≠ Some b) → p' !! c = Some b) ∧
  ∃ mx, mx ∈ p ∧ Forall (λ b, b ≤ mx) p ∧ (0 ≤ ret)%Z ∧
    (∀ c, c < length p → p' !! c = p !! c ∨ ∃ b, p' !! c = Some b ∧ mx < b ≤ mx + Z.to_nat ret) ∧
    (∀ b, mx < b ≤ mx + Z.to_nat ret → b ∈ p').

(** Connections as ordered pairs: every cell with itself, every face both ways. *)
Definition conns (nc : nat) (neigh : list (option nat * option nat)) : list (nat * nat) :=
  ((λ c, (c, c)) <$> seq 0 nc) ++
  flat_map (λ f, match f with (Some c1, Some c2) => [(c1, c2); (c2, c1)] | _ => [] end) neigh.
(** Some block without cell 0 has at least as many connections as the block of
    cell 0 has inside itself, not counting those that start in cell 0. *)
Definition roomy (neigh : list (option nat * option nat)) (p : list nat) : Prop :=
  ∃ b, b ∈ p ∧ p !! 0 ≠ Some b ∧
    length (filter (λ kv, kv.1 ≠ 0 ∧ p !! kv.1 = p !! 0 ∧ p !! kv.2 = p !! 0) (conns (length p) neigh)) ≤
    length (filter (λ kv, p !! kv.1 = Some b) (conns (length p) neigh)).

(** ** Proof *)
Lemma elem_of_row_of items c d : d ∈ row_of items c ↔ (c, d) ∈ items.
Proof.
  unfold row_of. rewrite elem_of_list_fmap. split.
  - intros ([k v] & -> & H). apply elem_of_list_filter in H as [Hk H]. simpl in *. by subst.
  - intros H. exists (c, d). split; [done|]. by apply elem_of_list_filter.
Qed.
Lemma elem_of_face_keys neigh u v :
  (u, v) ∈ face_keys neigh ↔ (Some u, Some v) ∈ neigh ∨ (Some v, Some u) ∈ neigh.
Proof.
  unfold face_keys. rewrite elem_of_list_In, in_flat_map. split.
  - intros ([[c1|] [c2|]] & Hf & H); simpl in H; try done.
    apply elem_of_list_In in Hf. destruct H as [H|[H|[]]]; simplify_eq; auto.
  - intros [H|H]; apply elem_of_list_In in H.
    + exists (Some u, Some v). split; [done|]. simpl. auto.
    + exists (Some v, Some u). split; [done|]. simpl. auto.
Qed.
Lemma face_keys_range nc neigh : valid nc neigh → Forall (λ kv, kv.1 < nc ∧ kv.2 < nc) (face_keys neigh).
Proof.
  intros Hv. apply Forall_forall. intros [u v] H. apply elem_of_face_keys in H as [H|H];
    destruct (Hv _ _ H) as (? & ? & ?); simpl; lia.
Qed.

Lemma filter_flat_map items cs (Q : nat * nat → Prop) `{∀ x, Decision (Q x)} :
  NoDup cs →
  length (filter Q (flat_map (λ c, (λ d, (c, d)) <$> row_of items c) cs))
  = length (filter (λ kv, kv.1 ∈ cs ∧ Q kv) items).
Proof.
  induction cs as [|c cs IH]; intros Hnd; cbn [flat_map].
  - symmetry. apply length_zero_iff_nil. induction items as [|kv l IHl]; [done|].
    rewrite filter_cons, decide_False; [done|]. intros [Hk _]. by apply elem_of_nil in Hk.
  - apply NoDup_cons in Hnd as [Hc Hnd]. rewrite filter_app, app_length, (IH Hnd). clear IH.
    induction items as [|[k v] l IHl]; [done|].
    change ((k, v) :: l) with ([(k, v)] ++ l). rewrite row_of_app, row_of_single, fmap_app, !filter_app, !app_length.
    rewrite !filter_cons, !filter_nil. cbn [fst].
    destruct (decide (k = c)) as [->|Hne].
    + rewrite fmap_cons. change (list_fmap _ _ _ []) with (@nil (nat * nat)). rewrite filter_cons, ?filter_nil.
      destruct (decide (Q (c, v))) as [HQ|HQ].
      * rewrite (decide_False (P := c ∈ cs ∧ Q (c, v))) by naive_solver.
        rewrite (decide_True (P := c ∈ c :: cs ∧ Q (c, v))) by (split; [left|done]). simpl in *. lia.
      * rewrite !decide_False by naive_solver. simpl in *. lia.
    + cbn [fmap list_fmap]. rewrite ?filter_nil. simpl in *.
      destruct (decide (k ∈ cs ∧ Q (k, v))) as [HQ|HQ].
      * rewrite decide_True by (destruct HQ; split; [by right|done]). simpl. lia.
      * rewrite decide_False; [lia|]. intros [Hk ?]. apply elem_of_cons in Hk as [?|?]; naive_solver.
Qed.
Lemma filter_le {A} (P Q : A → Prop) `{∀ x, Decision (P x)} `{∀ x, Decision (Q x)} (l : list A) :
  (∀ x, x ∈ l → P x → Q x) → length (filter P l) ≤ length (filter Q l).
Proof.
  induction l as [|x l IH]; intros HPQ; [done|]. rewrite !filter_cons.
  assert (length (filter P l) ≤ length (filter Q l)) by (apply IH; intros; apply HPQ; [by right|done]).
  pose proof (HPQ x ltac:(left)). destruct (decide (P x)), (decide (Q x)); simpl; try lia. naive_solver.
Qed.
Lemma flat_map_length_sum (f : nat → list nat) cs :
  Z.of_nat (length (flat_map (λ c, (λ d, (c, d)) <$> f c) cs)) = foldr Z.add 0%Z ((λ c, Z.of_nat (length (f c))) <$> cs).
Proof.
  induction cs as [|c cs IH]; [done|]. cbn [flat_map]. rewrite fmap_cons. cbn [foldr].
  rewrite app_length, fmap_length, Nat2Z.inj_add, IH. done.
Qed.
Lemma filter_true_length {A} (l : list A) : length (filter (λ _, True) l) = length l.
Proof. induction l as [|x l IH]; [done|]. rewrite filter_cons, decide_True by done. simpl. by rewrite IH. Qed.

Definition eff_of (reset : bool) (nc : nat) (neigh : list (option nat * option nat)) (c : nat) : list nat :=
  if decide (reset = true ∨ c ≠ 0) then row_of (citems nc neigh) c else [].

Lemma split_gen reset junk neigh p o :
  p ≠ [] → neigh ≠ [] → valid (length p) neigh → reset = true ∨ roomy neigh p →
  ∃ m, (∀ fuel, m ≤ fuel → split reset junk fuel neigh p o = Some ((-1)%Z, p)) ∧ false ∈ o ∨
    ∃ ret p', (∀ fuel, m ≤ fuel → split reset junk fuel neigh p o = Some (ret, p')) ∧
      splits (joined p (eff_of reset (length p) neigh)) p ret p'.
Proof.
  intros Hp Hn Hv Hroom.
  assert (Hp0 : 0 < length p) by (destruct p; simpl; [done|lia]).
  assert (Hn0 : 0 < length neigh) by (destruct neigh; simpl; [done|lia]).
  pose proof (face_keys_range _ _ Hv) as Hfr.
  assert (Hfail : ∀ o ok o', next_alloc o = (ok, o') → (ok = false → false ∈ o) ∧ (false ∈ o' → false ∈ o)).
  { intros [|x l] ok o'; simpl; intros [= <- <-]; [done|]. split; [intros ->; left|by right]. }
  set (items := citems (length p) neigh). set (eff := eff_of reset (length p) neigh).
  destruct (next_alloc o) as [ok1 o1] eqn:E1. destruct (next_alloc o1) as [ok2 o2] eqn:E2.
  assert (Hai : allocate_inverse junk (length p) (max_block p) o =
    (if ok1 && ok2 then Z.of_nat (length p) else 0%Z,
     if ok1 && ok2 then Some (junk <$> seq 0 (Z.to_nat (max_block p + 1) + 1), junk <$> seq 0 (length p)) else None, o2)).
  { unfold allocate_inverse. rewrite E1, E2. by destruct (ok1 && ok2). }
  unfold split. rewrite Hai. clear Hai.
  pose proof (Hfail _ _ _ E1) as F1. pose proof (Hfail _ _ _ E2) as F2.
  rewrite create_c2c_eq by done.
  set (pc2c := (if reset then 0 else length (citems (length p) neigh)) :: tail (starts 0 (rows_of (length p) (citems (length p) neigh)))).
  destruct (next_alloc o2) as [ok3 o3] eqn:E3. pose proof (Hfail _ _ _ E3) as F3.
  destruct (next_alloc o3) as [ok4 o4] eqn:E4. pose proof (Hfail _ _ _ E4) as F4.
  destruct (next_alloc o4) as [ok5 o5] eqn:E5. pose proof (Hfail _ _ _ E5) as F5.
  destruct (next_alloc o5) as [ok6 o6] eqn:E6. pose proof (Hfail _ _ _ E6) as F6.
  destruct (next_alloc o6) as [ok7 o7] eqn:E7. pose proof (Hfail _ _ _ E7) as F7.
  destruct (next_alloc o7) as [ok8 o8] eqn:E8. pose proof (Hfail _ _ _ E8) as F8.
  destruct (next_alloc o8) as [ok9 o9] eqn:E9. pose proof (Hfail _ _ _ E9) as F9.
  destruct ok3.
  2:{ exists 0. left. split; [|naive_solver]. intros fuel _. cbn [mbind option_bind]. rewrite E4.
      destruct ok1, ok2; done. }
  destruct ok4.
  2:{ exists 0. left. split; [|naive_solver]. intros fuel _. cbn [mbind option_bind]. rewrite E5.
      destruct ok1, ok2; done. }
  cbn [mbind option_bind]. rewrite E5.
  destruct ok1; [|exists 0; left; split; [done|naive_solver]].
  destruct ok2; [|exists 0; left; split; [done|naive_solver]]. cbn [andb].
  destruct ok5; [|exists 0; left; split; [done|naive_solver]].
  set (nblk := Z.to_nat (max_block p + 1)). set (blocks := cells_of p <$> seq 0 nblk).
  rewrite invert_Some.
  2:{ rewrite fmap_length, seq_length. pose proof (max_block_ge p). lia. } 2:{ by rewrite fmap_length, seq_length. }
  cbn [mbind option_bind]. fold nblk. fold blocks.
  pose proof (starts_holds blocks) as Hblk.
  assert (Hbl : length blocks = nblk) by (unfold blocks; by rewrite fmap_length, seq_length).
  assert (Hbk : ∀ b, b < nblk → blocks !! b = Some (cells_of p b)).
  { intros b Hb. unfold blocks. by rewrite list_lookup_fmap, lookup_seq_lt. }
  assert (Hbk' : ∀ b r, blocks !! b = Some r → b < nblk ∧ r = cells_of p b).
  { intros b r Hr. pose proof (lookup_lt_Some _ _ _ Hr). rewrite Hbk in Hr by lia. split; [lia|congruence]. }
  assert (Hce : ∀ b c, c ∈ cells_of p b ↔ p !! c = Some b) by apply cells_of_elem.
  destruct (localidx_loop_Some p (starts 0 blocks) (concat blocks) blocks nblk 0 (junk <$> seq 0 (length p)))
    as (loc & Eloc & _ & Hloc & _).
  { done. } { done. }
  { intros b r c Hr Hc. apply Hbk' in Hr as [_ ->]. by apply Hce. }
  { intros b r Hr. apply Hbk' in Hr as [_ ->]. apply cells_of_NoDup. }
  { by rewrite fmap_length, seq_length. }
  unfold localidx. rewrite Eloc. cbn [mbind option_bind].
  destruct (c2c_conn_ok reset (length p) neigh Hp0 Hfr) as [Hconn Hkz]. fold pc2c in Hconn, Hkz.
  assert (Hlpc : length pc2c = S (length p)).
  { unfold pc2c. simpl. f_equal. pose proof (starts_length 0 (rows_of (length p) (citems (length p) neigh))) as HH.
    unfold rows_of in HH at 2. rewrite fmap_length, seq_length in HH.
    destruct (starts 0 (rows_of (length p) (citems (length p) neigh))); simpl in *; [lia|]. lia. }
  destruct (count_block_conns_Some (starts 0 blocks) (concat blocks) pc2c blocks nblk 0 0 0 0%Z)
    as (maxc & maxn & -> & _ & Hmn0 & Hmax).
  { done. } { done. } { by destruct blocks. }
  { intros b r c Hr Hc. apply Hbk' in Hr as [_ ->]. apply Hce in Hc. apply lookup_lt_Some in Hc. lia. }
  cbn [mbind option_bind]. unfold allocate_dfs. rewrite E6, E7, E8, E9.
  destruct (ok6 && ok7 && ok8 && ok9) eqn:Eok.
  2:{ exists 0. left. split; [done|]. destruct ok6; [|naive_solver]. destruct ok7; [|naive_solver].
      destruct ok8; [|naive_solver]. destruct ok9; [done|naive_solver]. }
  clear F1 F2 F3 F4 F5 F6 F7 F8 F9 Hfail E1 E2 E3 E4 E5 E6 E7 E8 E9 Eok.
  assert (Hmem : ∀ c d, (c, d) ∈ items ↔ (d, c) ∈ items).
  { intros c d. unfold items, citems. rewrite !elem_of_app, !elem_of_face_keys. unfold self_keys.
    rewrite !elem_of_list_fmap. naive_solver. }
  assert (Heff : ∀ c d, d ∈ eff c ↔ (reset = true ∨ c ≠ 0) ∧ (c, d) ∈ items).
  { intros c d. unfold eff, eff_of. destruct (decide (reset = true ∨ c ≠ 0)) as [Hr|Hr].
    { rewrite elem_of_row_of. fold items. naive_solver. }
    split; [by intros ?%elem_of_nil|naive_solver]. }
  destruct (split_loop_Some p loc (starts 0 blocks) (concat blocks) pc2c
     (concat (rows_of (length p) (citems (length p) neigh))) eff maxc (Z.to_nat maxn))
    with (n := nblk) (b := 0) (ia := junk <$> seq 0 (maxc + 1)) (ja := junk <$> seq 0 (Z.to_nat maxn))
         (colour := (λ i, Z.of_nat (junk i)) <$> seq 0 maxc) (work := junk <$> seq 0 (2 * maxc))
         (ret := 0%Z) (p := p) as (m & ret & p' & Hrun & Haft).
  { done. }
  { done. }
  { intros b t c Hb Ht. eapply (Hloc b (cells_of p b)); [lia|by apply Hbk|done]. }
  { intros c d Hc Hd. apply Heff in Hd as [_ Hd]. unfold items, citems in Hd.
    apply elem_of_app in Hd as [Hd|Hd].
    - unfold self_keys in Hd. apply elem_of_list_fmap in Hd as (x & Hx & _). by simplify_eq.
    - rewrite Forall_forall in Hfr. by apply (Hfr _ Hd). }
  { intros c t Hc Ht. unfold eff, eff_of in Ht. destruct (decide (reset = true ∨ c ≠ 0)) as [Hr|Hr]; [|done].
    rewrite row_of_citems in Ht by done. destruct t as [|t]; [done|]. simpl in Ht.
    apply elem_of_list_lookup_2, elem_of_row_of, elem_of_face_keys in Ht.
    destruct Ht as [Ht|Ht]; destruct (Hv _ _ Ht) as (_ & _ & ?); done. }
  { destruct reset.
    - left. intros c d Hd. apply Heff in Hd as [_ Hd]. apply Heff. split; [by left|]. by apply Hmem.
    - right. split; [done|]. intros c d Hd Hd0. apply Heff in Hd as [_ Hd]. apply Heff.
      split; [by right|]. by apply Hmem. }
  { intros b Hb. by apply (Hmax b _ ltac:(lia) (Hbk b Hb)). }
  { (* room for the connections *)
    assert (Hlt : ∀ b, Forall (λ c, c < length p) (cells_of p b)).
    { intros b. apply Forall_forall. intros c Hc. apply Hce in Hc. by eapply lookup_lt_Some. }
    assert (Hfull : ∀ b, b < nblk → reset = true ∨ p !! 0 ≠ Some b →
        length (filter (λ kv, p !! kv.1 = Some b) items) ≤ Z.to_nat maxn ∧
        (∀ c, c ∈ cells_of p b → eff c = row_of items c)).
    { intros b Hb Hr.
      assert (Hre : ∀ c, c ∈ cells_of p b → reset = true ∨ c ≠ 0).
      { intros c Hc. destruct Hr as [?|Hr]; [by left|right]. intros ->. by apply Hce in Hc. }
      split.
      - destruct (Hmax b _ ltac:(lia) (Hbk b Hb)) as [_ Hk].
        assert (Ez : foldr Z.add 0%Z (kz pc2c <$> cells_of p b) = Z.of_nat (length (filter (λ kv, p !! kv.1 = Some b) items))).
        { transitivity (foldr Z.add 0%Z ((λ c, Z.of_nat (length (row_of items c))) <$> cells_of p b)).
          - f_equal. apply list_fmap_ext. intros i c Hc. apply elem_of_list_lookup_2 in Hc.
            rewrite Hkz by (specialize (Hlt b); rewrite Forall_forall in Hlt; by apply Hlt).
            rewrite decide_True by (by apply Hre). done.
          - rewrite <- flat_map_length_sum.
            rewrite <- (filter_true_length (flat_map _ _)).
            rewrite (filter_flat_map items (cells_of p b) (λ _, True)) by apply cells_of_NoDup.
            do 2 f_equal. apply filter_ext_elem. intros x _. rewrite Hce. naive_solver. }
        rewrite Ez in Hk. lia.
      - intros c Hc. unfold eff, eff_of. rewrite decide_True by (by apply Hre). done. }
    intros b Hb. destruct (decide (reset = true ∨ p !! 0 ≠ Some b)) as [Hr|Hr].
    - destruct (Hfull b Hb Hr) as [Hk He]. etrans; [|exact Hk].
      assert (flat_map (λ c, (λ d, (c, d)) <$> eff c) (cells_of p b)
        = flat_map (λ c, (λ d, (c, d)) <$> row_of items c) (cells_of p b)) as ->.
      { clear -He. induction (cells_of p b) as [|c l IH]; [done|]. cbn [flat_map].
        rewrite He by left. f_equal. apply IH. intros d Hd. apply He. by right. }
      rewrite filter_flat_map by apply cells_of_NoDup. apply filter_le.
      intros [u v] _ [Hu _]. by apply Hce in Hu.
    - assert (reset = false) as -> by (destruct reset; naive_solver).
      assert (H0 : p !! 0 = Some b). { destruct (decide (p !! 0 = Some b)); naive_solver. }
      destruct Hroom as [?|(b' & Hb' & Hb0 & Hle)]; [done|].
      assert (Hb'n : b' < nblk). { pose proof (max_block_lt p) as Hm. rewrite Forall_forall in Hm. by apply Hm. }
      destruct (Hfull b' Hb'n ltac:(by right)) as [Hk _]. etrans; [|exact Hk]. etrans; [|exact Hle].
      rewrite H0.
      (* connections that start in cell 0 are not there *)
      assert (E0 : filter (λ kv : nat * nat, p !! kv.2 = Some b) (flat_map (λ c, (λ d, (c, d)) <$> eff c) (cells_of p b))
        = filter (λ kv : nat * nat, kv.1 ≠ 0 ∧ p !! kv.2 = Some b)
            (flat_map (λ c, (λ d, (c, d)) <$> eff c) (cells_of p b))).
      { apply filter_ext_elem. intros [u v] Huv. simpl. split; [|naive_solver]. intros Hv2. split; [|done].
        apply elem_of_list_In, in_flat_map in Huv as (c & _ & Huv). apply elem_of_list_In in Huv.
        apply elem_of_list_fmap in Huv as (d & Hd & Hde). simplify_eq. apply Heff in Hde as [[?|?] _]; done. }
      rewrite E0.
      assert (E1 : length (filter (λ kv : nat * nat, kv.1 ≠ 0 ∧ p !! kv.2 = Some b) (flat_map (λ c, (λ d, (c, d)) <$> eff c) (cells_of p b)))
        = length (filter (λ kv : nat * nat, kv.1 ≠ 0 ∧ p !! kv.2 = Some b) (flat_map (λ c, (λ d, (c, d)) <$> row_of items c) (cells_of p b)))).
      { clear. induction (cells_of p b) as [|c l IH]; [done|]. cbn [flat_map]. rewrite !filter_app, !app_length, IH.
        f_equal. unfold eff, eff_of. destruct (decide (false = true ∨ c ≠ 0)) as [Hc|Hc]; [done|].
        assert (c = 0) as -> by (destruct (decide (c = 0)); naive_solver). simpl.
        fold items. induction (row_of items 0) as [|d r IHr]; [done|].
        rewrite fmap_cons, filter_cons, decide_False by (simpl; naive_solver). done. }
      rewrite E1. rewrite filter_flat_map by apply cells_of_NoDup.
      change (conns (length p) neigh) with items.
      apply filter_le. intros [u v] _. simpl. rewrite Hce. naive_solver. }
  { done. } { done. } { lia. }
  { by rewrite fmap_length, seq_length. } { by rewrite fmap_length, seq_length. }
  { by rewrite fmap_length, seq_length. } { by rewrite fmap_length, seq_length. }
  { done. }
  { intros; lia. }
  exists m. right. exists ret, p'. split; [done|].
  destruct Haft as (A1 & A2 & _ & A4 & A5 & A6 & A7).
  unfold splits. split_and!; [done| | |].
  - intros u v Hu Hw. destruct (lookup_lt_is_Some_2 p u Hu) as [k Hk]. destruct (lookup_lt_is_Some_2 p v Hw) as [l Hl].
    apply (A5 u v k l); [done|done|lia|lia].
  - intros b c Hc Hfirst. apply (A7 b c); [lia|].
    assert (G : ∀ n i, i ≤ c → c < i + n → filter (λ c, p !! c = Some b) (seq i n) !! 0 = Some c).
    { induction n as [|n IHn]; intros i Hi Hin; [lia|]. cbn [seq]. rewrite filter_cons.
      destruct (decide (i = c)) as [->|Hne]; [by rewrite decide_True by done|].
      rewrite decide_False by (apply Hfirst; lia). apply IHn; lia. }
    apply G; [lia|]. apply lookup_lt_Some in Hc. lia.
  - destruct (max_block_in p Hp) as (mx & Hmx & Emx). pose proof (max_block_bound p) as Hmb.
    exists mx. split_and!; [done| |done| |].
    + eapply Forall_impl; [exact Hmb|]. simpl. intros. lia.
    + intros c Hc. destruct (lookup_lt_is_Some_2 p c Hc) as [k Hk].
      destruct (A4 c k Hk ltac:(lia)) as [->|(x & -> & Hx)]; [by left|]. right. eexists. split; [done|]. lia.
    + intros b Hb. destruct (A6 (Z.of_nat b)) as (c & k & _ & _ & Hc); [lia|].
      rewrite Nat2Z.id in Hc. by eapply elem_of_list_lookup_2.
Qed.

Lemma splits_ext (R S : nat → nat → Prop) p ret p' :
  (∀ u v, u < length p → rtc R u v ↔ rtc S u v) → splits R p ret p' → splits S p ret p'.
Proof.
  intros HRS (H1 & H2 & H3). split_and!; [done| |apply H3|apply H3].
  intros u v Hu Hv. rewrite H2 by done. by apply HRS.
Qed.

(** With the statement [pc2c[0] = 0] that partition_create_c2c lacks, the
    function would do what its comment says: every block is split into its
    connected components. *)
Theorem C11_split_if_pointer_reset junk neigh p o :
  p ≠ [] → neigh ≠ [] → valid (length p) neigh →
  ∃ m, (∀ fuel, m ≤ fuel → split true junk fuel neigh p o = Some ((-1)%Z, p)) ∧ false ∈ o ∨
    ∃ ret p', (∀ fuel, m ≤ fuel → split true junk fuel neigh p o = Some (ret, p')) ∧
      splits (step neigh p) p ret p'.
Proof.
  intros Hp Hn Hv. destruct (split_gen true junk neigh p o Hp Hn Hv ltac:(by left))
    as (m & [H|(ret & p' & Hrun & Hs)]); exists m; [by left|right].
  exists ret, p'. split; [done|]. eapply splits_ext; [|done]. intros u v Hu.
  assert (Hm : ∀ a b, b ∈ eff_of true (length p) neigh a ↔
     (a = b ∧ a < length p) ∨ (Some a, Some b) ∈ neigh ∨ (Some b, Some a) ∈ neigh).
  { intros a b. unfold eff_of. rewrite decide_True by (by left). rewrite elem_of_row_of. unfold citems.
    rewrite elem_of_app, elem_of_face_keys. unfold self_keys. rewrite elem_of_list_fmap.
    setoid_rewrite elem_of_seq. split.
    - intros [(x & ? & ?)|?]; [left; simplify_eq; split; [done|lia]|by right].
    - intros [[-> ?]|?]; [left; exists b; split; [done|lia]|by right]. }
  split; intros H.
  - induction H as [|a b c (H0 & H1 & _) _ IH]; [done|].
    apply Hm in H1 as [[-> _]|H1]; [by apply IH|]. eapply rtc_l; [split; [done|exact H1]|].
    apply IH. destruct (lookup_lt_is_Some_2 p a Hu) as [x Hx]. rewrite Hx in H0. symmetry in H0. by eapply lookup_lt_Some.
  - induction H as [|a b c (H0 & H1) _ IH]; [done|].
    eapply rtc_l; [split_and!; [done| |]|].
    + apply Hm. by right.
    + apply Hm. right. naive_solver.
    + apply IH. destruct (lookup_lt_is_Some_2 p a Hu) as [x Hx]. rewrite Hx in H0. symmetry in H0. by eapply lookup_lt_Some.
Qed.
Print Assumptions C11_split_if_pointer_reset.

(** The code that exists.  Missing with respect to the full claim (two cells end
    up in the same block exactly when they were in the same block and a path
    inside it joins them): the paths must not touch cell 0, so cell 0 always
    ends up alone, and there must be a block that makes the arrays large
    enough.  [C11_cell_zero_refuted] and [C11_overflow_refuted] show that both
    restrictions are real. *)
Theorem C11_split_partial junk neigh p o :
  p ≠ [] → neigh ≠ [] → valid (length p) neigh → roomy neigh p →
  ∃ m, (∀ fuel, m ≤ fuel → split false junk fuel neigh p o = Some ((-1)%Z, p)) ∧ false ∈ o ∨
    ∃ ret p', (∀ fuel, m ≤ fuel → split false junk fuel neigh p o = Some (ret, p')) ∧
      splits (λ u v, u ≠ 0 ∧ v ≠ 0 ∧ step neigh p u v) p ret p'.
Proof.
  intros Hp Hn Hv Hroom. destruct (split_gen false junk neigh p o Hp Hn Hv ltac:(by right))
    as (m & [H|(ret & p' & Hrun & Hs)]); exists m; [by left|right].
  exists ret, p'. split; [done|]. eapply splits_ext; [|done]. intros u v Hu.
  assert (Hm : ∀ a b, b ∈ eff_of false (length p) neigh a ↔
     a ≠ 0 ∧ ((a = b ∧ a < length p) ∨ (Some a, Some b) ∈ neigh ∨ (Some b, Some a) ∈ neigh)).
  { intros a b. unfold eff_of. case_decide as Hc.
    2:{ split; [by intros ?%elem_of_nil|naive_solver]. }
    rewrite elem_of_row_of. unfold citems.
    rewrite elem_of_app, elem_of_face_keys. unfold self_keys. rewrite elem_of_list_fmap.
    setoid_rewrite elem_of_seq. split.
    - intros H. split; [naive_solver|]. destruct H as [(x & ? & ?)|?]; [left; simplify_eq; split; [done|lia]|by right].
    - intros [_ [[-> ?]|?]]; [left; exists b; split; [done|lia]|by right]. }
  split; intros H.
  - induction H as [|a b c (H0 & H1 & H2) _ IH]; [done|].
    apply Hm in H1 as (Ha & [[-> _]|H1]); [by apply IH|]. apply Hm in H2 as (Hb & _).
    eapply rtc_l; [split_and!; [done|done|split; [done|exact H1]]|].
    apply IH. destruct (lookup_lt_is_Some_2 p a Hu) as [x Hx]. rewrite Hx in H0. symmetry in H0. by eapply lookup_lt_Some.
  - induction H as [|a b c (Ha & Hb & H0 & H1) _ IH]; [done|].
    eapply rtc_l; [split_and!; [done| |]|].
    + apply Hm. split; [done|]. by right.
    + apply Hm. split; [done|]. right. naive_solver.
    + apply IH. destruct (lookup_lt_is_Some_2 p a Hu) as [x Hx]. rewrite Hx in H0. symmetry in H0. by eapply lookup_lt_Some.
Qed.
Print Assumptions C11_split_partial.

(** Cells 0 and 1 share a face and a block, all memory is available, and yet
    they end up in different blocks. *)
Theorem C11_cell_zero_refuted :
  ∃ neigh p, p ≠ [] ∧ valid (length p) neigh ∧ roomy neigh p ∧ step neigh p 0 1 ∧
    ∀ junk fuel, 20 ≤ fuel → ∃ p', split false junk fuel neigh p [] = Some (1%Z, p') ∧ p' !! 0 ≠ p' !! 1.
Proof.
  exists [(Some 0, Some 1); (Some 2, Some 3); (Some 1, None)], [0; 0; 1; 1].
  split_and!.
  - done.
  - intros c1 c2 H. repeat (apply elem_of_cons in H as [H|H]; [simplify_eq; simpl; lia|]). by apply elem_of_nil in H.
  - exists 1. split_and!; [right; right; left|done|vm_compute; lia].
  - split; [done|]. left. left.
  - intros junk fuel Hf. exists [0; 2; 1; 1]. split; [|done].
    do 20 (destruct fuel as [|fuel]; [lia|]). vm_compute. reflexivity.
Qed.
Print Assumptions C11_cell_zero_refuted.

(** One block of two cells that share a face: the connections are written past
    the end of an array of length zero. *)
Theorem C11_overflow_refuted :
  ∃ neigh p, p ≠ [] ∧ neigh ≠ [] ∧ valid (length p) neigh ∧
    ∀ junk fuel, split false junk fuel neigh p [] = None.
Proof.
  exists [(Some 0, Some 1)], [0; 0]. split_and!; [done|done| |].
  - intros c1 c2 H. repeat (apply elem_of_cons in H as [H|H]; [simplify_eq; simpl; lia|]). by apply elem_of_nil in H.
  - intros junk fuel. vm_compute. reflexivity.
Qed.
Print Assumptions C11_overflow_refuted.

(** Non-vacuity of [C11_split_if_pointer_reset]: a path 0-1-2-3-4 in which block
    0 = {0,1,3,4} falls apart. *)
Example C11_ex :
  split true (λ _, 9) 30 [(Some 0, Some 1); (Some 1, Some 2); (Some 2, Some 3); (Some 3, Some 4); (Some 4, None)]
    [0; 0; 1; 0; 0] [] = Some (1%Z, [0; 0; 1; 2; 2]) ∧
  split true (λ _, 9) 30 [(Some 0, Some 1); (Some 1, Some 2); (Some 2, Some 3); (Some 3, Some 4); (Some 4, None)]
    [0; 0; 1; 0; 0] [true; true; true; false] = Some ((-1)%Z, [0; 0; 1; 0; 0]).
Proof. split; vm_compute; reflexivity. Qed.
Example C11_ex_partial :
  split false (λ _, 9) 30 [(Some 0, Some 1); (Some 2, Some 3); (Some 3, Some 4); (Some 1, Some 3)]
    [0; 0; 1; 1; 1; 1] [] = Some (2%Z, [0; 2; 1; 1; 1; 3]).
Proof. vm_compute. reflexivity. Qed.
