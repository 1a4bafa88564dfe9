(** The points of all pillars. *)
From Verif Require Import Base LoopModel LoopProof UniqModel UniqSpec UniqProof.
Unset Default Proof Using.

(** ** Arithmetic of pillars and sums *)
Lemma sum_seq_app (f : nat → nat) a n m : sum_list_with f (seq a (n + m)) = sum_list_with f (seq a n) + sum_list_with f (seq (a + n) m).
Proof. rewrite seq_app. apply sum_list_with_app. Qed.
Lemma sum_product (f g : nat → nat) a b : 0 < a → sum_list_with (λ q, f (q mod a) * g (q / a)) (seq 0 (a * b)) = sum_list_with f (seq 0 a) * sum_list_with g (seq 0 b).
Proof.
  intros Ha. induction b as [|b IH]; [by rewrite !Nat.mul_0_r|]. replace (a * S b) with (a * b + a) by lia. rewrite sum_seq_app, IH. replace (S b) with (b + 1) by lia. rewrite sum_seq_app. cbn [sum_list_with seq Nat.add].
  rewrite Nat.add_0_r. rewrite Nat.mul_add_distr_l. f_equal. rewrite (Nat.mul_comm (sum_list_with f _)).
  assert (G : ∀ n k, k + n ≤ a → sum_list_with (λ q, f (q mod a) * g (q / a)) (seq (a * b + k) n) = g b * sum_list_with f (seq k n)).
  { induction n as [|n IHn]; intros k Hk; [cbn; lia|]. cbn [seq sum_list_with]. replace (S (a * b + k)) with (a * b + S k) by lia. rewrite IHn by lia.
    replace ((a * b + k) mod a) with k by (rewrite (Nat.mul_comm a b), Nat.add_comm, Nat.mod_add by lia; rewrite Nat.mod_small by lia; done).
    replace ((a * b + k) / a) with b by (rewrite (Nat.mul_comm a b), Nat.div_add_l by lia; rewrite Nat.div_small by lia; lia). lia. }
  specialize (G a 0). rewrite Nat.add_0_r in G. apply G. lia.
Qed.
(** The number of corner columns in one direction that share a pillar. *)
Definition share (n i : nat) : nat := if decide (i = 0 ∨ i = n) then 1 else 2.
Lemma share_sum n : 1 ≤ n → sum_list_with (share n) (seq 0 (n + 1)) = 2 * n.
Proof.
  intros Hn. replace (n + 1) with (1 + ((n - 1) + 1)) by lia. rewrite !sum_seq_app. cbn [seq sum_list_with Nat.add].
  assert (G : ∀ m k, 1 ≤ k → k + m ≤ n → sum_list_with (share n) (seq k m) = 2 * m).
  { induction m as [|m IH]; intros k Hk Hm; [done|]. cbn [seq sum_list_with]. rewrite IH by lia. unfold share. rewrite decide_False by lia. lia. }
  rewrite G by lia. unfold share. rewrite decide_True by lia. rewrite decide_True by lia. lia.
Qed.
Lemma sum_prefix (f : nat → nat) q n : q ≤ n → sum_list_with f (seq 0 q) ≤ sum_list_with f (seq 0 n).
Proof. intros H. replace n with (q + (n - q)) by lia. rewrite sum_seq_app. lia. Qed.

Lemma concat_split {A} (ls : list (list A)) q L : ls !! q = Some L → concat ls = concat (take q ls) ++ L ++ concat (drop (S q) ls).
Proof. intros Hq. rewrite <- (take_drop_middle _ _ _ Hq) at 1. by rewrite concat_app. Qed.
Lemma concat_at {A} (ls : list (list A)) q L n x : ls !! q = Some L → L !! n = Some x → concat ls !! (length (concat (take q ls)) + n) = Some x.
Proof.
  intros Hq Hn. rewrite (concat_split ls q L Hq). rewrite lookup_app_r by lia.
  replace (length (concat (take q ls)) + n - length (concat (take q ls))) with n by lia. rewrite lookup_app_l; [done|by eapply lookup_lt_Some].
Qed.
Lemma slice_rows {A} w (T : list (list A)) rest m t : Forall (λ l, length l = w) T → T !! m = Some t → slice (concat T ++ rest) (w * m) w = Some t.
Proof.
  intros HT Hm. assert (Hl : length (concat (take m T)) = w * m).
  { assert (m ≤ length T) as Hm' by (apply lookup_lt_Some in Hm; lia). clear Hm. revert m Hm'. induction HT as [|l T Hl HT IH]; intros [|m] Hm; cbn in *; [lia|lia|lia|]. rewrite app_length, IH by lia. lia. }
  assert (length t = w) by (rewrite Forall_forall in HT; by apply HT, elem_of_list_lookup_2 with m).
  apply slice_pointwise; [done|]. intros k Hk. destruct (lookup_lt_is_Some_2 t k) as [x Hx]; [lia|].
  pose proof (concat_at T m t k x Hm Hx) as E. rewrite Hl in E. rewrite lookup_app_l; [by rewrite E, Hx|by eapply lookup_lt_Some].
Qed.

Section find.
Context {V : Type} (lt : V → V → Prop) `{!RelDecision lt} (shift : V → V) (qsort : list V → list V).
Hypothesis laws : depth_laws lt shift.
Hypothesis Hsort : sorts lt qsort.
Variables (nx ny nz : nat) (coord zcorn : list V) (actnum : list Z).
Hypothesis Hin : input_sizes nx ny nz coord zcorn actnum.
Notation on_pillar := (on_pillar nx ny nz zcorn actnum).
Notation active := (active nx nz actnum).
Notation depth := (depth nx nz zcorn).
Notation corner := (corner nx ny nz).

Lemma nx_pos : 1 ≤ nx ∧ 1 ≤ ny. Proof. apply Hin. Qed.
Lemma column_bound i j : i < 2 * nx → j < 2 * ny → 2 * nz * (i + 2 * nx * j) + 2 * nz ≤ length zcorn.
Proof. intros Hi Hj. rewrite (is_zcorn _ _ _ _ _ _ Hin). assert (i + 2 * nx * j + 1 ≤ 2 * nx * (2 * ny)) by nia. nia. Qed.
Lemma depth_total i j k : corner i j k → ∃ z, depth i j k z.
Proof. intros (Hi & Hj & Hk). apply lookup_lt_is_Some_2. pose proof (column_bound i j Hi Hj). lia. Qed.
Lemma act_total i j k : corner i j k → ∃ a, actnum !! (nz * (i / 2 + nx * (j / 2)) + k / 2) = Some a.
Proof.
  intros (Hi & Hj & Hk). apply lookup_lt_is_Some_2. rewrite (is_actnum _ _ _ _ _ _ Hin).
  assert (i / 2 < nx) by (apply Nat.div_lt_upper_bound; lia). assert (j / 2 < ny) by (apply Nat.div_lt_upper_bound; lia). assert (k / 2 < nz) by (apply Nat.div_lt_upper_bound; lia).
  assert (i / 2 + nx * (j / 2) + 1 ≤ nx * ny) by nia. nia.
Qed.
Lemma active_dec i j k : active i j k ∨ ¬ active i j k.
Proof.
  unfold UniqSpec.active. destruct (actnum !! (nz * (i / 2 + nx * (j / 2)) + k / 2)) as [a|]; [|right; by intros (? & ? & _)]. destruct (decide (a = 0)%Z) as [->|]; [right; intros (? & [= <-] & ?); done|left; by exists a].
Qed.

(** ** The four corner columns at a pillar *)
Definition lo (i : nat) : nat := Nat.max 1 (2 * i) - 1.
Definition hi (n i : nat) : nat := Nat.min (2 * n) (2 * i + 1) - 1.
Definition cols (I J : nat) : list (nat * nat) := [(lo I, lo J); (lo I, hi ny J); (hi nx I, lo J); (hi nx I, hi ny J)].
Lemma lo_half i : Nat.max 1 i - 1 = lo i / 2.
Proof. unfold lo. destruct i as [|i]; [done|]. replace (Nat.max 1 (2 * S i) - 1) with (1 + i * 2) by lia. rewrite Nat.div_add by lia. replace (1 / 2) with 0 by done. lia. Qed.
Lemma hi_half n i : 1 ≤ n → i ≤ n → Nat.min n (i + 1) - 1 = hi n i / 2.
Proof.
  intros Hn Hi. unfold hi. destruct (decide (i = n)) as [->|].
  - replace (Nat.min (2 * n) (2 * n + 1) - 1) with (1 + (n - 1) * 2) by lia. rewrite Nat.div_add by lia. replace (1 / 2) with 0 by done. lia.
  - replace (Nat.min (2 * n) (2 * i + 1) - 1) with (0 + i * 2) by lia. rewrite Nat.div_add by lia. replace (0 / 2) with 0 by done. lia.
Qed.
Lemma zs_cols I J : I ≤ nx → J ≤ ny → vector_positions (2 * nx) (2 * ny) (2 * nz) (2 * I) (2 * J) = (λ c, 2 * nz * (c.1 + 2 * nx * c.2)) <$> cols I J.
Proof. intros HI HJ. unfold vector_positions, cols, lo, hi. done. Qed.
Lemma ss_cols I J : I ≤ nx → J ≤ ny → vector_positions nx ny nz I J = (λ c, nz * (c.1 / 2 + nx * (c.2 / 2))) <$> cols I J.
Proof.
  intros HI HJ. destruct nx_pos. unfold vector_positions, cols. cbn [fmap list_fmap fst snd]. rewrite (lo_half I), (lo_half J), (hi_half nx I), (hi_half ny J) by done. done.
Qed.
Lemma half_cases n I i : 1 ≤ n → I ≤ n → i = lo I ∨ i = hi n I ↔ i < 2 * n ∧ (i + 1) / 2 = I.
Proof.
  intros Hn HI. assert (E : (i + 1) / 2 = I ↔ i + 1 = 2 * I ∨ i + 1 = 2 * I + 1).
  { pose proof (Nat.div_mod (i + 1) 2 ltac:(lia)) as D. pose proof (Nat.mod_upper_bound (i + 1) 2 ltac:(lia)). split; [intros <-; lia|]. intros [H1|H1]; lia. }
  rewrite E. unfold lo, hi. lia.
Qed.
Lemma cols_spec I J i j : I ≤ nx → J ≤ ny → (i, j) ∈ cols I J ↔ i < 2 * nx ∧ j < 2 * ny ∧ pillar nx i j = I + (nx + 1) * J.
Proof.
  intros HI HJ. destruct nx_pos as [Hx Hy]. transitivity ((i = lo I ∨ i = hi nx I) ∧ (j = lo J ∨ j = hi ny J)).
  { unfold cols. rewrite !elem_of_cons, elem_of_nil. naive_solver. }
  rewrite (half_cases nx I i Hx HI), (half_cases ny J j Hy HJ). unfold pillar. split.
  - intros [[? <-] [? <-]]. done.
  - intros (Hi & Hj & E). assert ((i + 1) / 2 < nx + 1) by (apply Nat.div_lt_upper_bound; lia). assert ((j + 1) / 2 < ny + 1) by (apply Nat.div_lt_upper_bound; lia).
    apply pair_inj in E as [<- <-]; [done|lia|lia].
Qed.

(** ** Collecting *)
Lemma collect_row_ok i (cs : list (nat * nat)) : (∀ c, c ∈ cs → corner c.1 c.2 i) →
  ∃ l, collect_row i ((λ c, 2 * nz * (c.1 + 2 * nx * c.2)) <$> cs) ((λ c, nz * (c.1 / 2 + nx * (c.2 / 2))) <$> cs) zcorn actnum = Some l ∧ length l ≤ length cs ∧
    ∀ z, z ∈ l ↔ ∃ c, c ∈ cs ∧ active c.1 c.2 i ∧ depth c.1 c.2 i z.
Proof.
  induction cs as [|c cs IH]; intros Hc.
  - exists []. split; [done|]. split; [done|]. intros z. split; [by intros ?%elem_of_nil|]. intros (c & H & _). by apply elem_of_nil in H.
  - destruct IH as (l & E & Hl & Hz); [intros c' Hc'; apply Hc; by right|]. destruct (act_total c.1 c.2 i) as [a Ea]; [apply Hc; left|]. destruct (depth_total c.1 c.2 i) as [z0 Ez]; [apply Hc; left|].
    cbn [fmap list_fmap collect_row]. rewrite Ea. cbn [mbind option_bind]. destruct (decide (a ≠ 0)%Z) as [Ha|Ha].
    + unfold UniqSpec.depth in Ez. rewrite Ez. cbn [mbind option_bind]. cbn [fmap list_fmap] in E. rewrite E. cbn [mbind option_bind]. exists ([z0] ++ l). split; [done|]. split; [cbn; lia|].
      intros z. cbn [app]. rewrite elem_of_cons, Hz. split.
      * intros [->|(c' & ? & ?)]; [exists c; split; [left|]; split; [by exists a|done]|exists c'; split; [by right|done]].
      * intros (c' & Hc' & Hact & Hd). apply elem_of_cons in Hc' as [->|Hc']; [left; unfold UniqSpec.depth in Hd; congruence|right; by exists c'].
    + cbn [mbind option_bind]. cbn [fmap list_fmap] in E. rewrite E. cbn [mbind option_bind]. exists l. split; [done|]. split; [cbn; lia|]. intros z. rewrite Hz. split.
      * intros (c' & ? & ?). exists c'. split; [by right|done].
      * intros (c' & Hc' & (a' & Ea' & Ha') & Hd). apply elem_of_cons in Hc' as [->|Hc']; [rewrite Ea in Ea'; injection Ea' as <-; tauto|]. exists c'. split; [done|]. split; [by exists a'|done].
Qed.
Lemma collect_ok (cs : list (nat * nat)) m : ∀ i, (∀ c k, c ∈ cs → i ≤ k → k < i + m → corner c.1 c.2 k) →
  ∃ l, collect m i ((λ c, 2 * nz * (c.1 + 2 * nx * c.2)) <$> cs) ((λ c, nz * (c.1 / 2 + nx * (c.2 / 2))) <$> cs) zcorn actnum = Some l ∧ length l ≤ m * length cs ∧
    ∀ z, z ∈ l ↔ ∃ c k, c ∈ cs ∧ i ≤ k ∧ k < i + m ∧ active c.1 c.2 k ∧ depth c.1 c.2 k z.
Proof.
  induction m as [|m IH]; intros i Hc; cbn [collect].
  - exists []. split; [done|]. split; [done|]. intros z. split; [by intros ?%elem_of_nil|]. intros (c & k & _ & ? & ? & _). lia.
  - destruct (collect_row_ok i cs) as (l1 & E1 & Hl1 & Hz1); [intros c Hcc; apply Hc; [done|lia|lia]|]. destruct (IH (S i)) as (l2 & E2 & Hl2 & Hz2); [intros c k ???; apply Hc; [done|lia|lia]|].
    rewrite E1. cbn [mbind option_bind]. rewrite E2. cbn [mbind option_bind]. exists (l1 ++ l2). split; [done|]. split; [rewrite app_length; lia|]. intros z. rewrite elem_of_app, Hz1, Hz2. split.
    + intros [(c & ? & ? & ?)|(c & k & ? & ? & ? & ? & ?)]; [exists c, i; split_and!; try done; lia|exists c, k; split_and!; try done; lia].
    + intros (c & k & Hcc & Hk1 & Hk2 & ? & ?). destruct (decide (k = i)) as [->|]; [left; by exists c|]. right. exists c, k. split_and!; try done; lia.
Qed.

(** ** The points of a pillar *)
Definition raw (q : nat) : list V :=
  default [] (collect (2 * nz) 0 (vector_positions (2 * nx) (2 * ny) (2 * nz) (2 * (q mod (nx + 1))) (2 * (q / (nx + 1)))) (vector_positions nx ny nz (q mod (nx + 1)) (q / (nx + 1))) zcorn actnum).
Definition pts (q : nat) : list V := thin lt shift (qsort (raw q)).

Lemma raw_ok I J : I ≤ nx → J ≤ ny → let q := I + (nx + 1) * J in
  collect (2 * nz) 0 (vector_positions (2 * nx) (2 * ny) (2 * nz) (2 * I) (2 * J)) (vector_positions nx ny nz I J) zcorn actnum = Some (raw q) ∧
  length (raw q) ≤ 8 * nz ∧ ∀ z, z ∈ raw q ↔ on_pillar q z.
Proof.
  intros HI HJ q. destruct (collect_ok (cols I J) (2 * nz) 0) as (l & E & Hl & Hz).
  { intros [i j] k Hc _ Hk. apply cols_spec in Hc as (? & ? & _); [|done..]. split; [done|]. split; [done|lia]. }
  assert (Emod : q mod (nx + 1) = I) by (unfold q; rewrite Nat.mul_comm, Nat.mod_add by lia; apply Nat.mod_small; lia).
  assert (Ediv : q / (nx + 1) = J) by (unfold q; rewrite Nat.add_comm, (Nat.mul_comm _ J), Nat.div_add_l by lia; rewrite Nat.div_small by lia; lia).
  unfold raw. rewrite Emod, Ediv. rewrite zs_cols, ss_cols by done. rewrite E. change (default [] (Some l)) with l. split; [done|]. split; [change (length (cols I J)) with 4 in Hl; lia|].
  intros z. rewrite Hz. unfold UniqSpec.on_pillar. split.
  - intros ([i j] & k & Hc & _ & Hk & Ha & Hd). apply cols_spec in Hc as (? & ? & ?); [|done..]. exists i, j, k. split; [split; [done|split; [done|lia]]|]. done.
  - intros (i & j & k & (Hi & Hj & Hk) & Hp & Ha & Hd). exists (i, j), k. split; [by apply cols_spec|]. split; [lia|]. split; [lia|done].
Qed.
Lemma pillar_split q : q < (nx + 1) * (ny + 1) → ∃ I J, I ≤ nx ∧ J ≤ ny ∧ q = I + (nx + 1) * J.
Proof.
  intros Hq. exists (q mod (nx + 1)), (q / (nx + 1)). pose proof (Nat.mod_upper_bound q (nx + 1) ltac:(lia)). assert (q / (nx + 1) < ny + 1) by (apply Nat.div_lt_upper_bound; lia).
  pose proof (Nat.div_mod q (nx + 1) ltac:(lia)). lia.
Qed.
Lemma pts_right q : q < (nx + 1) * (ny + 1) → right_points lt shift nx ny nz zcorn actnum q (pts q).
Proof.
  intros Hq. destruct (pillar_split q Hq) as (I & J & HI & HJ & ->). destruct (raw_ok I J HI HJ) as (_ & _ & Hz). set (q := I + (nx + 1) * J) in *.
  unfold pts. destruct (Hsort (raw q)) as [Hp Hs]. assert (Hz' : ∀ z, z ∈ qsort (raw q) ↔ on_pillar q z) by (intros z; by rewrite Hp, Hz).
  destruct (qsort (raw q)) as [|v l].
  - cbn. split; [by intros z ?%elem_of_nil|done|..]; intros z Hz1; apply Hz' in Hz1; by apply elem_of_nil in Hz1.
  - split.
    + intros z Hin1. apply Hz'. by eapply thin_in.
    + intros n x y. by apply thin_gap.
    + intros z Hz1. eexists. split; [apply thin_last|]. apply (sorted_last lt shift laws); [done|]. by apply Hz'.
    + intros z Hz1. apply thin_near; [done|done|]. by apply Hz'.
Qed.
Lemma thin_short (l : list V) : length (thin lt shift l) ≤ length l.
Proof. destruct (uniquify_ok lt shift l) as (r & _ & H). rewrite app_length in H. lia. Qed.
Lemma raw_sorted_length q : length (qsort (raw q)) = length (raw q).
Proof. destruct (Hsort (raw q)) as [Hp _]. by rewrite Hp. Qed.

(** The number of points on a pillar is bounded by that of different corners. *)
Definition weight (q : nat) : nat := share nx (q mod (nx + 1)) * share ny (q / (nx + 1)).
Lemma weight_sum : sum_list_with weight (seq 0 ((nx + 1) * (ny + 1))) = 4 * (nx * ny).
Proof. destruct nx_pos. unfold weight. rewrite sum_product by lia. rewrite !share_sum by done. lia. Qed.
Lemma ends_list n I : 1 ≤ n → I ≤ n → ∃ l, length l = share n I ∧ ∀ i, i = lo I ∨ i = hi n I → i ∈ l.
Proof.
  intros Hn HI. unfold share. destruct (decide (I = 0 ∨ I = n)) as [H|H].
  - exists [lo I]. split; [done|]. intros i Hi. apply elem_of_list_singleton. unfold lo, hi in *. lia.
  - exists [lo I; hi n I]. split; [done|]. intros i [->| ->]; rewrite !elem_of_cons; auto.
Qed.
Lemma pts_length q : q < (nx + 1) * (ny + 1) → length (pts q) ≤ 2 * nz * weight q.
Proof.
  intros Hq. destruct (pts_right q Hq) as [Hf Hg _ _]. destruct (pillar_split q Hq) as (I & J & HI & HJ & E). destruct nx_pos as [Hx Hy].
  assert (Hw : weight q = share nx I * share ny J).
  { unfold weight. subst q. f_equal; f_equal; [rewrite Nat.mul_comm, Nat.mod_add by lia; apply Nat.mod_small; lia|rewrite Nat.add_comm, (Nat.mul_comm _ J), Nat.div_add_l by lia; rewrite Nat.div_small by lia; lia]. }
  destruct (ends_list nx I Hx HI) as (xs & Lx & Hxs). destruct (ends_list ny J Hy HJ) as (ys & Ly & Hys).
  set (D := list_prod xs ys). set (vals := concat ((λ c : nat * nat, take (2 * nz) (drop (2 * nz * (c.1 + 2 * nx * c.2)) zcorn)) <$> D)).
  assert (Hv : length vals ≤ 2 * nz * length D).
  { unfold vals. induction D as [|c D IH]; cbn [fmap list_fmap concat length]; [lia|]. rewrite app_length. cbn [fmap list_fmap] in IH. assert (length (take (2 * nz) (drop (2 * nz * (c.1 + 2 * nx * c.2)) zcorn)) ≤ 2 * nz) by (rewrite take_length; lia). nia. }
  assert (length D = share nx I * share ny J) as HD by (unfold D; rewrite prod_length; lia). rewrite Hw, <- HD. etransitivity; [|exact Hv].
  apply submseteq_length, NoDup_submseteq; [by apply (gap_NoDup lt shift laws)|]. intros z Hz. destruct (Hf z Hz) as (i & j & k & (Hi & Hj & Hk) & Hp & _ & Hd).
  assert (Hc : (i, j) ∈ cols I J) by (apply cols_spec; [done|done|]; by rewrite Hp).
  assert ((i = lo I ∨ i = hi nx I) ∧ (j = lo J ∨ j = hi ny J)) as [Hi' Hj'] by (unfold cols in Hc; rewrite !elem_of_cons, elem_of_nil in Hc; naive_solver).
  unfold vals. apply elem_of_list_In, in_concat. exists (take (2 * nz) (drop (2 * nz * (i + 2 * nx * j)) zcorn)). split.
  - apply elem_of_list_In, elem_of_list_fmap. exists (i, j). split; [done|]. apply elem_of_list_In, in_prod; apply elem_of_list_In; auto.
  - apply elem_of_list_In, elem_of_list_lookup. exists k. rewrite lookup_take by done. by rewrite lookup_drop.
Qed.
End find.
