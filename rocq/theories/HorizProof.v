(** Lemmas on horizontal faces. *)
From Verif Require Import Base LoopModel LoopProof UniqModel UniqSpec PrepModel HorizSpec.
Unset Default Proof Using.

(** ** The arrays *)
Lemma nbr_length (F : list face) : length (concat ((λ x, [fc_a x; fc_b x]) <$> F)) = 2 * length F.
Proof. induction F as [|x F IH]; [done|]. cbn [fmap list_fmap concat length app]. cbn [fmap list_fmap] in IH. rewrite IH. lia. Qed.

Definition room (g : pgrid) (r : nat) : Prop := g_nf g + r ≤ g_m g ∧ ∃ p, g_ptr g !! g_nf g = Some p ∧ p + 6 * r ≤ g_n g.

Lemma realloc_app {A} (junk : A) n D r : length D ≤ n → ∃ r', realloc_arr junk n (D ++ r) = D ++ r'.
Proof. intros H. unfold realloc_arr. rewrite take_app_ge by lia. rewrite <- app_assoc. eexists. done. Qed.

Lemma grow_ok cur used r step : used ≤ cur → r ≤ step → cur ≤ grow cur (used + r) step ∧ used + r ≤ grow cur (used + r) step.
Proof. intros. unfold grow. destruct (decide _); lia. Qed.
Lemma checkmemory_ok junk nz g F : holds g F → ∃ g', checkmemory junk nz g = Some g' ∧ holds g' F ∧ room g' ((2 * nz + 2) * (2 * nz + 2)) ∧
  g_nn g' = g_nn g ∧ g_np g' = g_np g ∧ (∃ r, take (length (g_tag g)) (g_tag g') = g_tag g ∧ g_tag g' = g_tag g ++ r).
Proof.
  intros [Hnf [rn Hn] [rd Hd] Hp Hm L1 L2 L3 L4]. unfold checkmemory. set (r := (2 * nz + 2) * (2 * nz + 2)).
  assert (Hpl := Hp (length F) ltac:(done)). rewrite firstn_all in Hpl. rewrite Hnf, Hpl. cbn [mbind option_bind].
  set (p := length (concat (fc_nodes <$> F))) in *. set (m := grow (g_m g) (length F + r) (2 * r)). set (n := grow (g_n g) (p + 6 * r) (12 * r)).
  assert (Em : g_m g ≤ m ∧ length F + r ≤ m) by (apply grow_ok; lia).
  assert (p ≤ g_n g) by (rewrite <- L2, Hd, app_length; fold p; lia).
  assert (En : g_n g ≤ n ∧ p + 6 * r ≤ n) by (apply grow_ok; lia).
  set (g1 := if decide (m = g_m g) then g else _).
  assert (G1 : holds g1 F ∧ g_m g1 = m ∧ g_n g1 = g_n g ∧ g_nn g1 = g_nn g ∧ g_np g1 = g_np g ∧ g_nf g1 = length F ∧ (∃ r, take (length (g_tag g)) (g_tag g1) = g_tag g ∧ g_tag g1 = g_tag g ++ r)).
  { unfold g1. destruct (decide (m = g_m g)) as [E|E].
    - split; [split; try done; by eexists|]. rewrite <- E. split_and!; try done. exists []. by rewrite firstn_all, app_nil_r.
    - assert (g_m g ≤ m) by lia. split_and!; cbn [g_m g_n g_nbr g_nodes g_ptr g_tag g_nf g_its g_nn g_np]; try done.
      + split; cbn [g_m g_n g_nbr g_nodes g_ptr g_tag g_nf g_its g_nn g_np]; try done.
        * rewrite Hn. apply realloc_app. rewrite nbr_length. lia.
        * by exists rd.
        * intros k Hk. rewrite realloc_arr_lookup by lia. by apply Hp.
        * lia.
        * rewrite realloc_arr_length. lia.
        * by rewrite realloc_arr_length.
        * by rewrite realloc_arr_length.
      + unfold realloc_arr. rewrite (take_ge (g_tag g)) by lia. rewrite take_app. eexists. done. }
  clearbody g1. destruct G1 as ([Hnf1 [rn1 Hn1] [rd1 Hd1] Hp1 Hm1 M1 M2 M3 M4] & E1 & E2 & E3 & E4 & E5 & E6). rewrite E2.
  eexists. split; [done|]. destruct (decide (n = g_n g)) as [E|E].
  - split_and!; try done; [split; try done; by eexists|]. split; [lia|]. exists p. rewrite E5. split; [by rewrite Hp1, firstn_all|lia].
  - split_and!; cbn [g_m g_n g_nbr g_nodes g_ptr g_tag g_nf g_its g_nn g_np]; try done.
    + split; cbn [g_m g_n g_nbr g_nodes g_ptr g_tag g_nf g_its g_nn g_np]; try done; [by eexists|rewrite Hd1; apply realloc_app; fold p; lia|by rewrite realloc_arr_length].
    + split; [cbn [g_m g_nf]; lia|]. exists p. cbn [g_ptr g_nf g_n]. rewrite E5. split; [rewrite Hp1 by done; by rewrite firstn_all|lia].
Qed.

Lemma take_app_S {A} (l : list A) x k : k ≤ length l → take k (l ++ [x]) = take k l.
Proof. intros. by rewrite take_app_le. Qed.

Lemma put_face_ok g F a b ns : holds g F → length F + 1 ≤ g_m g → length (concat (fc_nodes <$> F)) + length ns ≤ g_n g →
  ∃ g', put_face g (length (concat (fc_nodes <$> F))) (2 * length F) a b ns = Some g' ∧ holds g' (F ++ [Face a b ns]) ∧
    g_m g' = g_m g ∧ g_n g' = g_n g ∧ g_tag g' = g_tag g ∧ g_its g' = g_its g ∧ g_nn g' = g_nn g ∧ g_np g' = g_np g.
Proof.
  intros [Hnf [rn Hn] [rd Hd] Hp Hm L1 L2 L3 L4] H1 H2. unfold put_face. pose proof (nbr_length F) as HL.
  rewrite <- L2 in H2. rewrite (memcpy_Some (g_nbr g)) by (cbn; lia). rewrite (memcpy_Some (g_nodes g)) by exact H2. cbn [mbind option_bind]. rewrite upd_Some by lia. cbn [mbind option_bind]. eexists. split; [done|].
  split; [|done]. split; cbn [g_nf g_nbr g_nodes g_ptr g_tag g_m g_n].
  - rewrite app_length. cbn. lia.
  - rewrite fmap_app, concat_app. cbn [fmap list_fmap concat]. rewrite app_nil_r. rewrite Hn, <- HL, take_app. rewrite app_assoc. eexists. done.
  - rewrite fmap_app, concat_app. cbn [fmap list_fmap concat fc_nodes]. rewrite app_nil_r. rewrite Hd, take_app. rewrite app_assoc. eexists. done.
  - intros k. rewrite app_length. cbn. intros Hk. rewrite Hnf. destruct (decide (k = length F + 1)) as [->|].
    + rewrite list_lookup_insert by lia. rewrite (take_ge (F ++ _)) by (rewrite app_length; cbn; lia). rewrite fmap_app, concat_app, app_length. cbn. by rewrite app_nil_r.
    + rewrite list_lookup_insert_ne by lia. rewrite take_app_S by lia. apply Hp. lia.
  - rewrite app_length. cbn. lia.
  - rewrite !app_length, take_length, drop_length. cbn. lia.
  - rewrite !app_length, take_length, drop_length. lia.
  - by rewrite insert_length.
  - done.
Qed.
Lemma put_tag_ok g F k t : holds g F → k < g_m g → ∃ g', put_tag g k t = Some g' ∧ holds g' F ∧ g_m g' = g_m g ∧ g_n g' = g_n g ∧ g_tag g' = <[k := t]> (g_tag g) ∧ g_its g' = g_its g ∧ g_nn g' = g_nn g ∧ g_np g' = g_np g.
Proof.
  intros [Hnf [rn Hn] [rd Hd] Hp Hm L1 L2 L3 L4] Hk. unfold put_tag. rewrite upd_Some by lia. cbn [mbind option_bind]. eexists. split; [done|]. split; [|done].
  split; cbn; try done; [by exists rn|by exists rd|by rewrite insert_length].
Qed.

(** ** One column *)
Section column.
Variables (nz : nat) (lv : nat → list Z) (idc : nat → Z).
Hypothesis idc_nonneg : ∀ k, (0 ≤ idc k)%Z.
Hypothesis idc_inj : ∀ k k', idc k = idc k' → k = k'.

Fixpoint hgo (m k : nat) (prev : Z) : list face :=
  match m with
  | 0 => []
  | S m =>
    if decide (lv k = lv (k + 1)) then hgo m (k + 1) prev
    else if decide (k mod 2 = 1) then Face prev (idc ((k - 1) / 2)) (lv k) :: hgo m (k + 1) (idc ((k - 1) / 2))
    else if decide (prev = -1)%Z then hgo m (k + 1) prev
    else Face prev (-1) (lv k) :: hgo m (k + 1) (-1)
  end.
Definition alive (c : nat) : Prop := lv (2 * c + 1) ≠ lv (2 * c + 2).
Definition conn (c k : nat) : Prop := alive c ∧ 2 * c + 2 ≤ k ∧ ∀ l, 2 * c + 2 ≤ l → l ≤ k → lv l = lv (2 * c + 2).
Definition pinv (k : nat) (prev : Z) : Prop := (prev = (-1)%Z ∧ ∀ c, ¬ conn c k) ∨ ∃ c, prev = idc c ∧ conn c k.

Lemma conn_unique c c' k : conn c k → conn c' k → c = c'.
Proof.
  assert (G : ∀ c c', conn c k → conn c' k → c < c' → False).
  { intros a a' (_ & H1 & H2) (H3 & H4 & _) Hlt. apply H3. rewrite (H2 (2 * a' + 1)), (H2 (2 * a' + 2)) by lia. done. }
  intros H H'. destruct (Nat.lt_trichotomy c c') as [?|[?|?]]; [|done|]; exfalso; eauto.
Qed.
Lemma conn_same c k : lv k = lv (k + 1) → conn c (k + 1) ↔ conn c k.
Proof.
  intros E. split; intros (Ha & H1 & H2).
  - assert (2 * c + 2 ≠ k + 1). { intros ?. apply Ha. replace (2 * c + 1) with k by lia. replace (2 * c + 2) with (k + 1) by lia. done. }
    split; [done|]. split; [lia|]. intros l ? ?. apply H2; lia.
  - split; [done|]. split; [lia|]. intros l ? ?. destruct (decide (l = k + 1)) as [->|]; [rewrite <- E|]; apply H2; lia.
Qed.
Lemma conn_odd c k : k mod 2 = 1 → lv k ≠ lv (k + 1) → conn c (k + 1) ↔ c = (k - 1) / 2.
Proof.
  intros Ho E. assert (Hk : k = 2 * ((k - 1) / 2) + 1). { pose proof (Nat.div_mod k 2 ltac:(lia)). replace (k - 1) with (k / 2 * 2) by lia. rewrite Nat.div_mul by lia. lia. }
  split.
  - intros (Ha & H1 & H2). destruct (decide (2 * c + 2 = k + 1)); [lia|]. exfalso. apply E. rewrite (H2 k), (H2 (k + 1)) by lia. done.
  - intros ->. set (c := (k - 1) / 2) in *. split; [unfold alive; rewrite <- Hk; by replace (2 * c + 2) with (k + 1) by lia|]. split; [lia|]. intros l ? ?. f_equal. lia.
Qed.
Lemma conn_even c k : k mod 2 ≠ 1 → lv k ≠ lv (k + 1) → ¬ conn c (k + 1).
Proof.
  intros Ho E (Ha & H1 & H2). destruct (decide (2 * c + 2 = k + 1)).
  - apply Ho. replace k with (1 + c * 2) by lia. rewrite Nat.mod_add by lia. done.
  - apply E. rewrite (H2 k), (H2 (k + 1)) by lia. done.
Qed.
Lemma pinv_same k p : lv k = lv (k + 1) → pinv k p → pinv (k + 1) p.
Proof. intros E [[-> H]|(c & -> & H)]; [left; split; [done|]; intros c; by rewrite conn_same|right; exists c; by rewrite conn_same]. Qed.
Lemma pinv_odd k : k mod 2 = 1 → lv k ≠ lv (k + 1) → pinv (k + 1) (idc ((k - 1) / 2)).
Proof. intros. right. eexists. split; [done|]. by apply conn_odd. Qed.
Lemma pinv_even k : k mod 2 ≠ 1 → lv k ≠ lv (k + 1) → pinv (k + 1) (-1).
Proof. intros. left. split; [done|]. intros c. by apply conn_even. Qed.
Lemma pinv_even' k : k mod 2 ≠ 1 → pinv k (-1) → pinv (k + 1) (-1).
Proof. intros Ho H. destruct (decide (lv k = lv (k + 1))); [by apply pinv_same|by apply pinv_even]. Qed.
Lemma idc_neg c : (-1)%Z ≠ idc c. Proof. pose proof (idc_nonneg c). lia. Qed.

Lemma odd_half k c : k mod 2 = 1 → (k = 2 * c + 1 ↔ c = (k - 1) / 2).
Proof. intros Ho. pose proof (Nat.div_mod k 2 ltac:(lia)). assert (E : (k - 1) / 2 = k / 2) by (replace (k - 1) with (k / 2 * 2) by lia; rewrite Nat.div_mul; lia). lia. Qed.

Lemma hgo_in m k p x : pinv k p → x ∈ hgo m k p ↔
  (∃ c p', k ≤ 2 * c + 1 ∧ 2 * c + 1 < k + m ∧ alive c ∧ pinv (2 * c + 1) p' ∧ x = Face p' (idc c) (lv (2 * c + 1))) ∨
  (∃ c l, l mod 2 ≠ 1 ∧ k ≤ l ∧ l < k + m ∧ lv l ≠ lv (l + 1) ∧ conn c l ∧ x = Face (idc c) (-1) (lv l)).
Proof.
  revert k p. induction m as [|m IH]; intros k p Hp; cbn [hgo].
  { split; [intros H; by apply elem_of_nil in H|]. intros [(c & ? & ? & ? & _)|(c & l & _ & ? & ? & _)]; lia. }
  destruct (decide (lv k = lv (k + 1))) as [E|E].
  { rewrite IH by (by apply pinv_same). split.
    - intros [(c & p' & ? & ? & ?)|(c & l & ? & ? & ? & ?)]; [left; exists c, p'|right; exists c, l]; (split_and!; try done; try lia; naive_solver).
    - intros [(c & p' & ? & ? & Ha & ?)|(c & l & ? & ? & ? & Hl & ?)].
      + left. exists c, p'. assert (k ≠ 2 * c + 1). { intros ->. apply Ha. by replace (2 * c + 2) with (2 * c + 1 + 1) by lia. } split_and!; try done; try lia; naive_solver.
      + right. exists c, l. assert (k ≠ l) by (by intros ->). split_and!; try done; try lia; naive_solver. }
  destruct (decide (k mod 2 = 1)) as [Ho|Ho].
  { rewrite elem_of_cons, IH by (by apply pinv_odd). assert (Hk := proj2 (odd_half k _ Ho) eq_refl). set (ck := (k - 1) / 2) in *. split.
    - intros [->|[(c & p' & ? & ? & ?)|(c & l & ? & ? & ? & ?)]].
      + left. exists ck, p. rewrite <- Hk. split_and!; try done; try lia. unfold alive. rewrite <- Hk. by replace (2 * ck + 2) with (k + 1) by lia.
      + left. exists c, p'. split_and!; try done; try lia; naive_solver.
      + right. exists c, l. split_and!; try done; try lia; naive_solver.
    - intros [(c & p' & ? & ? & Ha & Hp' & ->)|(c & l & ? & ? & ? & Hl & ?)].
      + destruct (decide (k = 2 * c + 1)) as [Ek|].
        * left. assert (c = ck) as -> by lia. rewrite <- Ek in *. f_equal. destruct Hp as [[-> H1]|(c1 & -> & H1)], Hp' as [[-> H2]|(c2 & -> & H2)]; [done|by destruct (H1 c2)|by destruct (H2 c1)|]. by rewrite (conn_unique _ _ _ H1 H2).
        * right. left. exists c, p'. split_and!; try done; lia.
      + right. right. exists c, l. assert (k ≠ l) by (by intros ->). split_and!; try done; try lia; naive_solver. }
  destruct (decide (p = -1)%Z) as [->|Hpn].
  { rewrite IH by (by apply pinv_even). assert (Hno : ∀ c, ¬ conn c k) by (destruct Hp as [[_ H]|(c & H & _)]; [done|by destruct (idc_neg c)]). split.
    - intros [(c & p' & ? & ? & ?)|(c & l & ? & ? & ? & ?)]; [left; exists c, p'|right; exists c, l]; (split_and!; try done; try lia; naive_solver).
    - intros [(c & p' & ? & ? & Ha & ?)|(c & l & ? & ? & ? & Hl & Hc & ?)].
      + left. exists c, p'. assert (k ≠ 2 * c + 1). { intros ->. apply Ho. rewrite Nat.add_comm, Nat.mul_comm, Nat.mod_add by lia. done. } split_and!; try done; try lia; naive_solver.
      + right. exists c, l. assert (k ≠ l) by (intros ->; by eapply Hno). split_and!; try done; try lia; naive_solver. }
  destruct Hp as [[? _]|(c0 & -> & Hc0)]; [done|]. rewrite elem_of_cons, IH by (by apply pinv_even). split.
  - intros [->|[(c & p' & ? & ? & ?)|(c & l & ? & ? & ? & ?)]].
    + right. exists c0, k. split_and!; try done; lia.
    + left. exists c, p'. split_and!; try done; try lia; naive_solver.
    + right. exists c, l. split_and!; try done; try lia; naive_solver.
  - intros [(c & p' & ? & ? & Ha & ?)|(c & l & ? & ? & ? & Hl & Hc & ->)].
    + right. left. exists c, p'. assert (k ≠ 2 * c + 1). { intros ->. apply Ho. rewrite Nat.add_comm, Nat.mul_comm, Nat.mod_add by lia. done. } split_and!; try done; try lia; naive_solver.
    + destruct (decide (k = l)) as [->|]; [left; by rewrite (conn_unique _ _ _ Hc Hc0)|]. right. right. exists c, l. split_and!; try done; lia.
Qed.

Lemma filter_none {A} (P : A → Prop) {HD : ∀ x, Decision (P x)} (l : list A) : (∀ x, x ∈ l → ¬ P x) → filter P l = [].
Proof. intros H. induction l as [|x l IH]; [done|]. rewrite filter_cons. rewrite decide_False by (apply H; apply elem_of_cons; by left). apply IH. intros y Hy. apply H. apply elem_of_cons. by right. Qed.

Lemma hgo_top m k p c : pinv k p → alive c → k ≤ 2 * c + 1 → 2 * c + 1 < k + m →
  ∃ x, filter (λ y, fc_b y = idc c) (hgo m k p) = [x] ∧ fc_nodes x = lv (2 * c + 1).
Proof.
  revert k p. induction m as [|m IH]; intros k p Hp Ha H1 H2; [lia|]. cbn [hgo]. destruct (decide (lv k = lv (k + 1))) as [E|E].
  { apply IH; [by apply pinv_same|done| |lia]. destruct (decide (k = 2 * c + 1)) as [->|]; [|lia]. destruct Ha. by replace (2 * c + 2) with (2 * c + 1 + 1) by lia. }
  destruct (decide (k mod 2 = 1)) as [Ho|Ho].
  - rewrite filter_cons. cbn [fc_b]. destruct (decide (k = 2 * c + 1)) as [Ek|].
    + rewrite decide_True by (by rewrite <- (proj1 (odd_half k c Ho) Ek)). rewrite filter_none; [exists (Face p (idc ((k - 1) / 2)) (lv k)); by rewrite <- Ek|].
      intros x Hx Hxc. apply hgo_in in Hx as [(c' & p' & ? & ? & _ & _ & ->)|(c' & l & _ & _ & _ & _ & _ & ->)]; [| |by apply pinv_odd]; cbn in Hxc; [apply idc_inj in Hxc as ->; lia|by destruct (idc_neg c)].
    + rewrite decide_False. { apply IH; [by apply pinv_odd|done|lia|lia]. } intros Hc%idc_inj. symmetry in Hc. apply (odd_half k c Ho) in Hc. done.
  - assert (k ≠ 2 * c + 1). { intros ->. apply Ho. rewrite Nat.add_comm, Nat.mul_comm, Nat.mod_add by lia. done. }
    destruct (decide (p = -1)%Z) as [->|]; [apply IH; [by apply pinv_even|done|lia|lia]|]. rewrite filter_cons. cbn [fc_b]. rewrite decide_False by apply idc_neg. apply IH; [by apply pinv_even|done|lia|lia].
Qed.
Lemma hgo_bottom m k p c : k + m = 2 * nz + 1 → lv (2 * nz) ≠ lv (2 * nz + 1) → pinv k p → alive c → p = idc c ∨ k ≤ 2 * c + 1 → 2 * c + 1 < 2 * nz + 1 → 1 ≤ k →
  ∃ x, filter (λ y, fc_a y = idc c) (hgo m k p) = [x] ∧ fc_nodes x = lv (2 * c + 2).
Proof.
  intros Hkm Hend. revert k p Hkm. induction m as [|m IH]; intros k p Hkm Hp Ha Hor Hc Hk.
  { rewrite Nat.add_0_r in Hkm. destruct Hor as [->|]; [|lia]. destruct Hp as [[? _]|(c' & Hc' & Hcon)]; [by destruct (idc_neg c)|]. apply idc_inj in Hc' as <-. destruct Hcon as (_ & H1 & H2). destruct Hend. destruct (decide (2 * c + 2 = k)); [lia|]. rewrite <- Hkm. rewrite (H2 (2 * nz)), (H2 k) by lia. done. }
  assert (Hgone : ∀ m' k' p', pinv k' p' → p' ≠ idc c → 2 * c + 1 < k' → filter (λ y, fc_a y = idc c) (hgo m' k' p') = []).
  { clear - idc_nonneg idc_inj. intros m'. induction m' as [|m' IH']; intros k' p' Hp Hne Hlt; [done|]. cbn [hgo].
    destruct (decide (lv k' = lv (k' + 1))); [apply IH'; [by apply pinv_same|done|lia]|]. destruct (decide (k' mod 2 = 1)) as [Ho|Ho].
    - rewrite filter_cons. cbn [fc_a]. rewrite decide_False by done. apply IH'; [by apply pinv_odd| |lia]. intros Hc%idc_inj. symmetry in Hc. apply (odd_half k' c Ho) in Hc. lia.
    - destruct (decide (p' = -1)%Z) as [->|]; [apply IH'; [by apply pinv_even|done|lia]|]. rewrite filter_cons. cbn [fc_a]. rewrite decide_False by done. apply IH'; [by apply pinv_even|apply idc_neg|lia]. }
  assert (Hpc : p = idc c → conn c k). { intros ->. destruct Hp as [[? _]|(c' & Hc' & Hcon)]; [by destruct (idc_neg c)|]. by apply idc_inj in Hc' as <-. }
  cbn [hgo]. destruct (decide (lv k = lv (k + 1))) as [E|E].
  { apply IH; [lia|by apply pinv_same|done| |lia|lia]. destruct Hor as [|Hle]; [by left|right]. destruct (decide (k = 2 * c + 1)) as [->|]; [|lia]. destruct Ha. by replace (2 * c + 2) with (2 * c + 1 + 1) by lia. }
  destruct (decide (k mod 2 = 1)) as [Ho|Ho].
  - assert (Hk' := proj2 (odd_half k _ Ho) eq_refl). rewrite filter_cons. cbn [fc_a]. destruct (decide (p = idc c)) as [->|Hne].
    + destruct (Hpc eq_refl) as (_ & H1 & H2). rewrite Hgone; [eexists; split; [done|]; cbn; apply H2; lia|by apply pinv_odd| |lia]. intros Hq%idc_inj. symmetry in Hq. apply (odd_half k c Ho) in Hq. lia.
    + destruct Hor as [|Hle]; [done|]. apply IH; [lia|by apply pinv_odd|done| |lia|lia]. destruct (decide (k = 2 * c + 1)) as [Ek|]; [left|right; lia]. f_equal. symmetry. by apply (odd_half k c Ho).
  - assert (k ≠ 2 * c + 1). { intros ->. apply Ho. rewrite Nat.add_comm, Nat.mul_comm, Nat.mod_add by lia. done. }
    destruct (decide (p = -1)%Z) as [->|].
    + apply IH; [lia|by apply pinv_even|done| |lia|lia]. right. destruct Hor as [?|?]; [by destruct (idc_neg c)|lia].
    + rewrite filter_cons. cbn [fc_a]. destruct (decide (p = idc c)) as [->|Hne].
      * destruct (Hpc eq_refl) as (_ & H1 & H2). rewrite Hgone; [eexists; split; [done|]; cbn; apply H2; lia|by apply pinv_even|apply idc_neg|lia].
      * destruct Hor as [|Hle]; [done|]. apply IH; [lia|by apply pinv_even|done|right; lia|lia|lia].
Qed.
Lemma start_pinv : pinv 1 (-1).
Proof. left. split; [done|]. intros c (_ & H & _). lia. Qed.
Lemma pinv_cases k p : pinv k p → p = (-1)%Z ∨ ∃ c, p = idc c ∧ alive c ∧ 2 * c + 2 ≤ k.
Proof. intros [[-> _]|(c & -> & H1 & H2 & _)]; [by left|right]. by exists c. Qed.

(** The column as a whole. *)
Definition hcol : list face := hgo (2 * nz) 1 (-1).
Lemma hcol_in x : x ∈ hcol → (fc_a x = (-1)%Z ∨ ∃ c, c < nz ∧ alive c ∧ fc_a x = idc c) ∧ (fc_b x = (-1)%Z ∨ ∃ c, c < nz ∧ alive c ∧ fc_b x = idc c) ∧ (fc_a x ≠ (-1)%Z ∨ fc_b x ≠ (-1)%Z).
Proof.
  intros Hx. apply hgo_in in Hx as [(c & p & ? & ? & Ha & Hp & ->)|(c & l & ? & ? & ? & ? & (Ha & Hc & _) & ->)]; [| |apply start_pinv]; cbn [fc_a fc_b].
  - split; [|split; [right; exists c; split; [lia|done]|right; pose proof (idc_neg c); done]]. apply pinv_cases in Hp as [?|(c' & -> & ? & ?)]; [by left|right]. exists c'. split; [lia|done].
  - split; [right; exists c; split; [lia|done]|]. split; [by left|]. left. pose proof (idc_neg c). done.
Qed.
Lemma hcol_shared c c' : c' < nz → alive c → alive c' → (∃ x, x ∈ hcol ∧ fc_a x = idc c ∧ fc_b x = idc c') ↔ c < c' ∧ ∀ l, 2 * c + 2 ≤ l → l ≤ 2 * c' + 1 → lv l = lv (2 * c + 2).
Proof.
  intros Hc' Ha Ha'. split.
  - intros (x & Hx & Hxa & Hxb). apply hgo_in in Hx as [(c1 & p & _ & _ & _ & Hp & ->)|(c1 & l & _ & _ & _ & _ & _ & ->)]; [| |apply start_pinv]; cbn in Hxa, Hxb; [|by destruct (idc_neg c')].
    apply idc_inj in Hxb as ->. subst p. destruct Hp as [[? _]|(c2 & Hc2 & (_ & H1 & H2))]; [by destruct (idc_neg c)|]. apply idc_inj in Hc2 as <-. split; [lia|done].
  - intros [Hlt Hl]. exists (Face (idc c) (idc c') (lv (2 * c' + 1))). split; [|done]. apply hgo_in; [apply start_pinv|]. left. exists c', (idc c). split; [lia|]. split; [lia|]. split; [done|]. split; [|done]. right. exists c. split; [done|]. split; [done|]. split; [lia|done].
Qed.
End column.
