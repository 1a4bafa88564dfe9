(** findconnections. *)
From Coq Require Import Reals Lra Psatz.
From Verif Require Import Base LoopModel LoopProof UniqModel PrepModel HorizSpec HorizProof VertModel VertSpec VertGeom VertSlots.
Unset Default Proof Using.

Lemma for_loop_or {S} (P : nat → S → Prop) (Q : Prop) (f : nat → S → option S) n lo s :
  P lo s → (∀ i s, lo ≤ i → i < lo + n → P i s → (∃ s', f i s = Some s' ∧ P (i + 1) s') ∨ (f i s = None ∧ Q)) →
  (∃ s', for_loop n lo f s = Some s' ∧ P (lo + n) s') ∨ (for_loop n lo f s = None ∧ Q).
Proof.
  revert lo s. induction n as [|n IH]; intros lo s Hp Hf; cbn [for_loop]. { left. exists s. rewrite Nat.add_0_r. done. }
  destruct (Hf lo s ltac:(lia) ltac:(lia) Hp) as [(s' & -> & Hs')|[-> HQ]]; cbn [mbind option_bind]; [|by right].
  rewrite Nat.add_1_r in Hs'. destruct (IH (Datatypes.S lo) s' Hs') as [(s'' & E & H)|H]; [intros i t H1 H2; apply Hf; lia| |].
  - left. exists s''. split; [done|]. by replace (lo + Datatypes.S n) with (Datatypes.S lo + n) by lia.
  - by right.
Qed.

Lemma memcpy_beyond {A} (l : list A) off src : src ≠ [] → length l < off + length src → memcpy l off src = None.
Proof.
  intros Hs Hl. destruct (memcpy l off src) as [l'|] eqn:E; [|done]. exfalso. pose proof (memcpy_length _ _ _ _ E) as Hl'.
  destruct src as [|x src]; [done|]. pose proof (memcpy_lookup_mid _ _ _ _ (length src) E ltac:(cbn; lia)) as Hk.
  destruct ((x :: src) !! length src) as [y|] eqn:Ey; [|apply lookup_ge_None in Ey; cbn in Ey; lia]. apply lookup_lt_Some in Hk. cbn in Hl. lia.
Qed.

Section find.
Variables (z1 z2 : Z → R).
Hypothesis Hz1 : ∀ p q, (p < q)%Z → (z1 p < z1 q)%R.
Hypothesis Hz2 : ∀ p q, (p < q)%Z → (z2 p < z2 q)%R.
Variables (n : nat) (plist : list Z) (p0 p1 p2 p3 : nat) (C : columns).
Hypothesis HA1 : ∀ k, k < n → plist !! (p0 + k) = Some (A1 C k).
Hypothesis HA2 : ∀ k, k < n → plist !! (p1 + k) = Some (A2 C k).
Hypothesis HB1 : ∀ k, k < n → plist !! (p2 + k) = Some (B1 C k).
Hypothesis HB2 : ∀ k, k < n → plist !! (p3 + k) = Some (B2 C k).
Hypothesis HcA : column_ok n (A1 C) (A2 C).
Hypothesis HcB : column_ok n (B1 C) (B2 C).
Variables (g0 : pgrid) (F0 : list face) (off : nat).
Notation base := (g_nn g0).

Notation a1 i := (A1 C i, A1 C (i + 1)). Notation a2 i := (A2 C i, A2 C (i + 1)).
Notation b1 j := (B1 C j, B1 C (j + 1)). Notation b2 j := (B2 C j, B2 C (j + 1)).
Definition quadr (i m : nat) : Z * Z * Z * Z := (A1 C i, A2 C i, B1 C m, B2 C m).
Definition X (i m : nat) : bool := line_intersection (A1 C i) (A2 C i) (B1 C m) (B2 C m).
Notation rcd I i m := (recd base I (A1 C i) (A2 C i) (B1 C m) (B2 C m)).
Definition over : Prop := ∃ I, NoDup I ∧ (∀ q, q ∈ I → ∃ i m, i < n ∧ m < n ∧ q = quadr i m ∧ X i m = true) ∧ length (g_its g0) < 4 * (off + length I).
Definition good (a b : nat) : Prop := (a mod 2 = 1 ∨ b mod 2 = 1) ∧ overlap z1 z2 C a b.
Definition face_ok (I : list (Z * Z * Z * Z)) (k : nat * nat) (x : face) : Prop :=
  cell_index k.1 (fc_a x) ∧ cell_index k.2 (fc_b x) ∧ length (fc_nodes x) ≤ 6 ∧ ∃ vs, polygon z1 z2 C k.1 k.2 vs ∧ Forall2 (numbered_as base I) vs (fc_nodes x).

(** The part of the invariant on the lists of pairs, faces and crossings. *)
Record ainv (i j : nat) (I : list (Z * Z * Z * Z)) (K : list (nat * nat)) (F : list face) : Prop := {
  ai_sound : ∀ q, q ∈ I → ∃ i' m, i' < n ∧ m < n ∧ q = quadr i' m ∧ X i' m = true ∧ (i' ≤ i ∨ (i' = i + 1 ∧ m ≤ j));
  ai_comp : ∀ i' m, i' ≤ i → m < n → X i' m = true → quadr i' m ∈ I;
  ai_nodup : NoDup I;
  ai_K : ∀ a b, (a, b) ∈ K ↔ a + 1 < n ∧ b + 1 < n ∧ good a b ∧ (a < i ∨ (a = i ∧ b < j));
  ai_order : ∀ u v a b a' b', u < v → K !! u = Some (a, b) → K !! v = Some (a', b') → a < a' ∨ (a = a' ∧ b < b');
  ai_faces : Forall2 (face_ok I) K F }.
(** The part on the arrays. *)
Record ginv (I : list (Z * Z * Z * Z)) (F : list face) (s : fstate) : Prop := {
  gi_holds : holds (fs_g s) (F0 ++ F);
  gi_f : fs_f s = length (concat (fc_nodes <$> (F0 ++ F)));
  gi_c : fs_c s = 2 * length (F0 ++ F);
  gi_ip : fs_ip s = 4 * (off + length I);
  gi_nn : g_nn (fs_g s) = base + length I;
  gi_its : g_its (fs_g s) = take (4 * off) (g_its g0) ++ quads I ++ drop (4 * (off + length I)) (g_its g0);
  gi_fit : 4 * (off + length I) ≤ length (g_its g0);
  gi_same : g_m (fs_g s) = g_m g0 ∧ g_n (fs_g s) = g_n g0 ∧ g_tag (fs_g s) = g_tag g0 ∧ g_np (fs_g s) = g_np g0 }.
(** The part on the records of crossings. *)
Definition binv (i : nat) (I : list (Z * Z * Z * Z)) (bot : list Z) : Prop := length bot = n ∧ ∀ m, m < n → ∃ x, bot !! m = Some x ∧ rcd I i m x.
Definition tinv (i j : nat) (I : list (Z * Z * Z * Z)) (top : list Z) : Prop :=
  length top = n ∧ ∀ m, m < n → ∃ x, top !! m = Some x ∧ (if decide (m ≤ j) then rcd I (i + 1) m x else x = (-1)%Z).

(** ** Levels *)
Lemma mono_up (D : nat → Z) k l : (∀ k, k + 1 < n → (D k ≤ D (k + 1)%nat)%Z) → k ≤ l → l < n → (D k ≤ D l)%Z.
Proof. intros H Hkl. induction Hkl as [|l Hkl IH]; [lia|]. intros Hl. specialize (IH ltac:(lia)). specialize (H l ltac:(lia)). rewrite Nat.add_1_r in H. lia. Qed.
Lemma A1_mono k l : k ≤ l → l < n → (A1 C k ≤ A1 C l)%Z. Proof using HcA. apply mono_up, HcA. Qed.
Lemma A2_mono k l : k ≤ l → l < n → (A2 C k ≤ A2 C l)%Z. Proof using HcA. apply mono_up, HcA. Qed.
Lemma B1_mono k l : k ≤ l → l < n → (B1 C k ≤ B1 C l)%Z. Proof using HcB. apply mono_up, HcB. Qed.
Lemma B2_mono k l : k ≤ l → l < n → (B2 C k ≤ B2 C l)%Z. Proof using HcB. apply mono_up, HcB. Qed.
Lemma MAi i : i + 1 < n → (A1 C i ≤ A1 C (i + 1)%nat ∧ A2 C i ≤ A2 C (i + 1)%nat)%Z.
Proof using HcA. intros. split; [apply A1_mono|apply A2_mono]; lia. Qed.
Lemma MBj j : j + 1 < n → (B1 C j ≤ B1 C (j + 1)%nat ∧ B2 C j ≤ B2 C (j + 1)%nat)%Z.
Proof using HcB. intros. split; [apply B1_mono|apply B2_mono]; lia. Qed.
Lemma X_true i m : X i m = true ↔ ((B1 C m < A1 C i ∧ A2 C i < B2 C m) ∨ (A1 C i < B1 C m ∧ B2 C m < A2 C i))%Z.
Proof. unfold X, line_intersection. by rewrite bool_decide_eq_true. Qed.
Lemma min_le (D1 D2 : nat → Z) k : column_ok n D1 D2 → k < n → (int_min ≤ D1 k ∧ int_min ≤ D2 k)%Z.
Proof. intros Hc Hk. destruct (co_num _ _ _ Hc k Hk) as [[->| ?] [->| ?]]; unfold int_min; lia. Qed.
Lemma max_ge (D1 D2 : nat → Z) k : column_ok n D1 D2 → k < n → (D1 k ≤ int_max ∧ D2 k ≤ int_max)%Z.
Proof. intros Hc Hk. destruct (decide (k = n - 1)) as [->|]; [destruct (co_last _ _ _ Hc) as [-> ->]; done|]. destruct (co_below _ _ _ Hc k ltac:(lia)). lia. Qed.
Lemma X_first m : m < n → X 0 m = false.
Proof using HcA HcB. intros Hm'. apply not_true_iff_false. rewrite X_true. destruct (co_first _ _ _ HcA) as [-> ->], (min_le _ _ m HcB Hm'). lia. Qed.
Lemma X_last m : m < n → X (n - 1) m = false.
Proof using HcA HcB. intros Hm'. apply not_true_iff_false. rewrite X_true. destruct (co_last _ _ _ HcA) as [-> ->], (max_ge _ _ m HcB Hm'). lia. Qed.

(** ** Few faces *)
Lemma few_pairs (K : list (nat * nat)) : (∀ a b, (a, b) ∈ K → a < n ∧ b < n) → (∀ u v a b a' b', u < v → K !! u = Some (a, b) → K !! v = Some (a', b') → a < a' ∨ (a = a' ∧ b < b')) → length K ≤ n * n.
Proof.
  intros Hin Hs. assert (ND : NoDup K).
  { apply NoDup_alt. intros u v [a b] Hu Hv. destruct (Nat.lt_trichotomy u v) as [Hlt|[?|Hlt]]; [|done|]; [specialize (Hs _ _ _ _ _ _ Hlt Hu Hv)|specialize (Hs _ _ _ _ _ _ Hlt Hv Hu)]; lia. }
  assert (Hsub : K ⊆+ list_prod (seq 0 n) (seq 0 n)).
  { apply NoDup_submseteq; [done|]. intros [a b] Hab. apply elem_of_list_In, in_prod; apply elem_of_list_In, elem_of_seq; destruct (Hin _ _ Hab); lia. }
  apply submseteq_length in Hsub. rewrite prod_length, !seq_length in Hsub. done.
Qed.
Lemma nodes_few (F : list face) : (∀ x, x ∈ F → length (fc_nodes x) ≤ 6) → length (concat (fc_nodes <$> F)) ≤ 6 * length F.
Proof. induction F as [|x F IH]; intros H; cbn; [lia|]. rewrite app_length. specialize (IH ltac:(intros y Hy; apply H; apply elem_of_cons; by right)). specialize (H x ltac:(apply elem_of_cons; by left)). cbn in IH. lia. Qed.
Lemma face_ok_mono I I' k x : face_ok I k x → face_ok (I ++ I') k x.
Proof.
  intros (H1 & H2 & H3 & vs & Hp & Hf). split_and!; try done. exists vs. split; [done|]. eapply Forall2_impl; [exact Hf|]. intros [p|p|q1 q2 q3 q4] y; cbn; [done|done|]. intros (m & Hm' & ->). exists m. split; [by apply lookup_app_l_Some|done].
Qed.
Lemma rcd_mono I I' i m x : rcd I i m x → rcd (I ++ I') i m x.
Proof. unfold recd. destruct (line_intersection _ _ _ _); [|done]. intros (k & Hk & ->). exists k. split; [by apply lookup_app_l_Some|done]. Qed.

(** ** Adding a face *)
Lemma cell_of_ok i : cell_index i (cell_of i) ∧ (cell_of i = (-1)%Z ↔ i mod 2 = 0).
Proof.
  unfold cell_of. pose proof (Nat.div_mod i 2 ltac:(lia)) as E. destruct (decide (i mod 2 = 0)) as [H|H].
  - split; [|done]. left. exists (i / 2). split; [lia|done].
  - assert (Ho : i mod 2 = 1) by (pose proof (Nat.mod_upper_bound i 2); lia). split; [right; exists ((i - 1) / 2); split; [|done]|split; [lia|lia]].
    replace ((i - 1) / 2) with (i / 2); [lia|]. replace (i - 1) with (i / 2 * 2) by lia. by rewrite Nat.div_mul by lia.
Qed.
(** ** Pairs that do not meet *)
Notation FI i j := (faceintersection (a1 i) (a2 i) (b1 j) (b2 j)).
Lemma FI_true i j : FI i j = true ↔ ((Z.max (A1 C i) (B1 C j) < Z.min (A1 C (i + 1)%nat) (B1 C (j + 1)%nat)) ∨ (Z.max (A2 C i) (B2 C j) < Z.min (A2 C (i + 1)%nat) (B2 C (j + 1)%nat)))%Z ∨ X i j = true ∨ X (i + 1) (j + 1) = true.
Proof. unfold faceintersection, X. cbn [fst snd]. rewrite !orb_true_iff, !bool_decide_eq_true. tauto. Qed.
Lemma overlap_iff i j : i + 1 < n → j + 1 < n → overlap z1 z2 C i j ↔ (A1 C i ≠ A1 C (i + 1) ∨ A2 C i ≠ A2 C (i + 1)) ∧ (B1 C j ≠ B1 C (j + 1) ∨ B2 C j ≠ B2 C (j + 1)) ∧ FI i j = true.
Proof using HcA HcB Hz1 Hz2. intros Hi Hj. exact (FI_iff z1 z2 Hz1 Hz2 C i j (MAi i Hi) (MBj j Hj)). Qed.
Lemma below_none i j : i + 1 < n → j + 1 < n → (B1 C (j + 1) ≤ A1 C i)%Z → (B2 C (j + 1) ≤ A2 C i)%Z → ¬ overlap z1 z2 C i j.
Proof using HcA HcB Hz1 Hz2. intros Hi Hj H1 H2. rewrite overlap_iff by done. rewrite FI_true, !X_true. pose proof (MAi i Hi). pose proof (MBj j Hj). lia. Qed.
Lemma above_none i j : i + 1 < n → j + 1 < n → (A1 C (i + 1) ≤ B1 C j)%Z → (A2 C (i + 1) ≤ B2 C j)%Z → ¬ overlap z1 z2 C i j.
Proof using HcA HcB Hz1 Hz2. intros Hi Hj H1 H2. rewrite overlap_iff by done. rewrite FI_true, !X_true. pose proof (MAi i Hi). pose proof (MBj j Hj). lia. Qed.
Lemma ends_ok p D k : (∀ k, k < n → plist !! (p + k) = Some (D k)) → k + 1 < n → ends plist p k = Some (D k, D (k + 1)).
Proof. intros H Hk. unfold ends. rewrite (H k), (H (k + 1)) by lia. done. Qed.

(** ** A pair that meets *)
Definition kinv (i : nat) (s : fstate) : Prop :=
  (fs_k1 s = 0 ∨ (B1 C (fs_k1 s) < A1 C i)%Z) ∧ (fs_k2 s = 0 ∨ (B2 C (fs_k2 s) < A2 C i)%Z) ∧ (fs_k1 s < n ∧ fs_k2 s < n).
Definition pinv (i j : nat) (s : fstate) : Prop := ∃ I K F, ginv I F s ∧ ainv i j I K F ∧ binv i I (fs_bot s) ∧ tinv i j I (fs_top s).

Lemma tinv_next i j I top : tinv i j I top → X (i + 1) (j + 1) = false → tinv i (j + 1) I top.
Proof.
  intros [Hl H] HX. split; [done|]. intros m Hm'. destruct (H m Hm') as (x & Hx & Hr). exists x. split; [done|]. destruct (decide (m = j + 1)) as [->|Hne].
  - rewrite decide_False in Hr by lia. rewrite decide_True by lia. unfold recd. fold (X (i + 1) (j + 1)). by rewrite HX.
  - destruct (decide (m ≤ j)); [by rewrite decide_True by lia|by rewrite decide_False by lia].
Qed.
Lemma tinv_put i j I I' top x : j + 1 < n → tinv i j I top → rcd (I ++ I') (i + 1) (j + 1) x → upd top (j + 1) x = Some (<[j + 1 := x]> top) ∧ tinv i (j + 1) (I ++ I') (<[j + 1 := x]> top).
Proof.
  intros Hj [Hl H] Hr. split; [apply upd_Some; lia|]. split; [by rewrite insert_length|]. intros m Hm'. destruct (decide (m = j + 1)) as [->|Hne].
  - exists x. rewrite list_lookup_insert by lia. split; [done|]. by rewrite decide_True by lia.
  - destruct (H m Hm') as (y & Hy & Hry). exists y. rewrite list_lookup_insert_ne by lia. split; [done|]. destruct (decide (m ≤ j)); [rewrite decide_True by lia; by apply rcd_mono|by rewrite decide_False by lia].
Qed.
Lemma binv_mono i I I' bot : binv i I bot → binv i (I ++ I') bot.
Proof. intros [Hl H]. split; [done|]. intros m Hm'. destruct (H m Hm') as (x & ? & ?). exists x. split; [done|]. by apply rcd_mono. Qed.

Hypothesis Hn : n mod 2 = 0.
(** A cell with some thickness has points on both pillars. *)
Lemma odd_points (D1 D2 : nat → Z) k : column_ok n D1 D2 → k + 1 < n → k mod 2 = 1 → D1 k ≠ D1 (k + 1) ∨ D2 k ≠ D2 (k + 1) →
  (0 ≤ D1 k ∧ 0 ≤ D2 k ∧ D1 (k + 1)%nat < int_max ∧ D2 (k + 1)%nat < int_max)%Z.
Proof using Hn.
  intros Hc Hk Ho Ht. assert (k + 1 ≠ n - 1). { intros E. assert (n = k + 1 + 1) as En by lia. rewrite En in Hn. pose proof (Nat.div_mod k 2 ltac:(lia)). rewrite Ho in *. replace (k + 1 + 1) with (1 + (k / 2 + 1) * 2) in Hn by lia. rewrite Nat.mod_add in Hn by lia. done. }
  destruct (co_below _ _ _ Hc (k + 1) ltac:(lia)). assert (D1 k ≠ int_min).
  { intros E. pose proof (co_cell _ _ _ Hc k Hk Ho E) as E'. assert (D2 k = int_min) by (apply (co_both _ _ _ Hc); [lia|done]). assert (D2 (k + 1) = int_min) by (apply (co_both _ _ _ Hc); [lia|done]). destruct Ht as [Ht|Ht]; apply Ht; congruence. }
  assert (D2 k ≠ int_min) by (intros E; apply (co_both _ _ _ Hc) in E; [done|lia]). destruct (co_num _ _ _ Hc k ltac:(lia)). split_and!; try done; lia.
Qed.
Lemma overlap_meaningful i j : i + 1 < n → j + 1 < n → good i j → meaningful (a1 i) (b1 j) = true ∧ (0 ≤ Z.max (A1 C i) (B1 C j) ∧ 0 ≤ Z.max (A2 C i) (B2 C j))%Z.
Proof using Hn HcA HcB Hz1 Hz2.
  intros Hi Hj [Hodd Ho]. destruct (overlap_thick z1 z2 Hz1 Hz2 C i j (MAi i Hi) (MBj j Hj) Ho) as [Ta Tb]. unfold meaningful. cbn [fst snd].
  rewrite andb_true_iff, !negb_true_iff, !bool_decide_eq_false. destruct Hodd as [Hodd|Hodd].
  - destruct (odd_points _ _ i HcA Hi Hodd Ta) as (Q1 & Q2 & Q3 & Q4). unfold int_min in *. lia.
  - destruct (odd_points _ _ j HcB Hj Hodd Tb) as (Q1 & Q2 & Q3 & Q4). unfold int_min in *. lia.
Qed.
Hypothesis Hm : length F0 + n * n ≤ g_m g0.
Hypothesis Hnn : length (concat (fc_nodes <$> F0)) + 6 * (n * n) ≤ g_n g0.
Lemma emit_ok i j I K F s ns : i + 1 < n → j + 1 < n → fs_j s = j → overlap z1 z2 C i j → ginv I F s →
  (∀ a b, (a, b) ∈ K ↔ a + 1 < n ∧ b + 1 < n ∧ good a b ∧ (a < i ∨ (a = i ∧ b < j))) →
  (∀ u v a b a' b', u < v → K !! u = Some (a, b) → K !! v = Some (a', b') → a < a' ∨ (a = a' ∧ b < b')) → Forall2 (face_ok I) K F →
  (good i j → length ns ≤ 6 ∧ ∃ vs, polygon z1 z2 C i j vs ∧ Forall2 (numbered_as base I) vs ns) →
  ∃ s' K' F', emit i (a1 i) (b1 j) ns s = Some s' ∧ ginv I F' s' ∧
    (∀ a b, (a, b) ∈ K' ↔ a + 1 < n ∧ b + 1 < n ∧ good a b ∧ (a < i ∨ (a = i ∧ b < j + 1))) ∧
    (∀ u v a b a' b', u < v → K' !! u = Some (a, b) → K' !! v = Some (a', b') → a < a' ∨ (a = a' ∧ b < b')) ∧ Forall2 (face_ok I) K' F' ∧
    fs_top s' = fs_top s ∧ fs_bot s' = fs_bot s ∧ fs_sw s' = fs_sw s ∧ fs_j s' = fs_j s ∧ fs_k1 s' = fs_k1 s ∧ fs_k2 s' = fs_k2 s.
Proof using Hn HcA HcB Hz1 Hz2 Hm Hnn.
  intros Hi Hj Ej Ho Hg AK Ao Af Hns. unfold emit. rewrite Ej. destruct (cell_of_ok i) as [Ci Ci'], (cell_of_ok j) as [Cj Cj'].
  pose proof (Nat.mod_upper_bound i 2 ltac:(lia)). pose proof (Nat.mod_upper_bound j 2 ltac:(lia)).
  assert (Dg : (i mod 2 = 1 ∨ j mod 2 = 1) ∨ (i mod 2 = 0 ∧ j mod 2 = 0)) by lia. destruct Dg as [Hodd|[He1 He2]].
  - assert (Hgood : good i j) by done. destruct (overlap_meaningful i j Hi Hj Hgood) as [-> _]. specialize (Hns Hgood) as (Hlen & Hvs).
    rewrite (bool_decide_eq_false_2) by lia. cbn [negb andb].
    set (K' := K ++ [(i, j)]). set (x := Face (cell_of i) (cell_of j) ns).
    assert (HK' : ∀ a b, (a, b) ∈ K' ↔ a + 1 < n ∧ b + 1 < n ∧ good a b ∧ (a < i ∨ (a = i ∧ b < j + 1))).
    { intros a b. unfold K'. rewrite elem_of_app, elem_of_list_singleton, AK. split.
      - intros [(? & ? & ? & ?)|[= -> ->]]; split_and!; try done; lia.
      - intros (? & ? & ? & Hab). destruct (decide (a = i ∧ b = j)) as [[-> ->]|]; [by right|left]. split_and!; try done; lia. }
    assert (HO' : ∀ u v a b a' b', u < v → K' !! u = Some (a, b) → K' !! v = Some (a', b') → a < a' ∨ (a = a' ∧ b < b')).
    { intros u v a b a' b' Huv Hu Hv. unfold K' in *. apply lookup_app_Some in Hv as [Hv|[Hlv Hv]].
      - rewrite lookup_app_l in Hu by (apply lookup_lt_Some in Hv; lia). eauto.
      - apply list_lookup_singleton_Some in Hv as [Hv [= <- <-]]. rewrite lookup_app_l in Hu by lia. apply elem_of_list_lookup_2, AK in Hu as (_ & _ & _ & ?). lia. }
    assert (HF' : Forall2 (face_ok I) K' (F ++ [x])). { apply Forall2_app; [done|]. constructor; [|constructor]. split_and!; done. }
    assert (HlF : length F = length K) by (symmetry; by eapply Forall2_length).
    assert (HlK : length K + 1 ≤ n * n). { replace (length K + 1) with (length K') by (unfold K'; rewrite app_length; cbn; lia). apply few_pairs; [|done]. intros a b Hab%HK'. lia. }
    assert (Hnod : length (concat (fc_nodes <$> F)) ≤ 6 * length F). { apply nodes_few. intros y Hy. apply elem_of_list_lookup_1 in Hy as [k Hk]. destruct (Forall2_lookup_r _ _ _ _ _ Af Hk) as (c & _ & (_ & _ & ? & _)). done. }
    destruct Hg as [G1 G2 G3 G4 G5 G6 G7 (G8 & G9 & G10 & G11)]. rewrite G2, G3.
    destruct (put_face_ok (fs_g s) (F0 ++ F) (cell_of i) (cell_of j) ns G1) as (g' & -> & H1 & H2 & H3 & H4 & H5 & H6 & H7).
    { rewrite app_length. lia. } { rewrite fmap_app, concat_app, app_length. lia. }
    cbn [mbind option_bind]. exists (FState g' (length (concat (fc_nodes <$> (F0 ++ F))) + length ns) (2 * length (F0 ++ F) + 2) (fs_ip s) (fs_top s) (fs_bot s) (fs_sw s) j (fs_k1 s) (fs_k2 s)), K', (F ++ [x]).
    split; [done|]. split; [|split_and!; done]. rewrite <- app_assoc in H1. split; cbn [fs_g fs_f fs_c fs_ip]; try done.
    + rewrite !fmap_app, !concat_app, !app_length. cbn. rewrite app_nil_r. lia.
    + rewrite !app_length. cbn. lia.
    + by rewrite H6.
    + by rewrite H5.
    + rewrite H2, H3, H4, H7. done.
  - rewrite (bool_decide_eq_true_2 (cell_of i = _ ∧ _)) by (split; [by apply Ci'|by apply Cj']). cbn [negb]. rewrite andb_false_r.
    exists s, K, F. split; [done|]. split; [done|]. split; [|split_and!; done]. intros a b. rewrite AK. split.
    + intros (? & ? & ? & ?). split_and!; try done; lia.
    + intros (? & ? & [Hodd ?] & Hab). split_and!; try done. destruct (decide (a = i ∧ b = j)) as [[-> ->]|]; lia.
Qed.

Lemma connect_ok i j s : i + 1 < n → j + 1 < n → fs_j s = j → (A1 C i ≠ A1 C (i + 1) ∨ A2 C i ≠ A2 C (i + 1)) → (B1 C j ≠ B1 C (j + 1) ∨ B2 C j ≠ B2 C (j + 1)) → FI i j = true → pinv i j s →
  (∃ s', connect i (a1 i) (a2 i) (b1 j) (b2 j) s = Some s' ∧ pinv i (j + 1) s' ∧ fs_sw s' = fs_sw s ∧ fs_j s' = j ∧ fs_k1 s' = fs_k1 s ∧ fs_k2 s' = fs_k2 s) ∨
  (connect i (a1 i) (a2 i) (b1 j) (b2 j) s = None ∧ over).
Proof using Hn HcA HcB Hz1 Hz2 Hm Hnn.
  intros Hi Hj Ej Ta Tb HFI (I & K & F & Hg & Ha & Hb & Ht). assert (Ho : overlap z1 z2 C i j) by (by apply overlap_iff). pose proof (MAi i Hi) as MA'. pose proof (MBj j Hj) as MB'.
  assert (Hwk : ∀ I' K' F', (∀ q, q ∈ I' → ∃ i' m, i' < n ∧ m < n ∧ q = quadr i' m ∧ X i' m = true ∧ (i' ≤ i ∨ (i' = i + 1 ∧ m ≤ j + 1))) → NoDup I' → (∀ q, q ∈ I → q ∈ I') →
    (∀ a b, (a, b) ∈ K' ↔ a + 1 < n ∧ b + 1 < n ∧ good a b ∧ (a < i ∨ (a = i ∧ b < j + 1))) →
    (∀ u v a b a' b', u < v → K' !! u = Some (a, b) → K' !! v = Some (a', b') → a < a' ∨ (a = a' ∧ b < b')) → Forall2 (face_ok I') K' F' → ainv i (j + 1) I' K' F').
  { intros I' K' F' Q1 Q2 Q3 Q4 Q5 Q6. split; try done. intros i' m Hi' Hm' HX. apply Q3. by apply (ai_comp _ _ _ _ _ Ha). }
  assert (Hso : ∀ q, q ∈ I → ∃ i' m, i' < n ∧ m < n ∧ q = quadr i' m ∧ X i' m = true ∧ (i' ≤ i ∨ (i' = i + 1 ∧ m ≤ j + 1))).
  { intros q Hq. destruct (ai_sound _ _ _ _ _ Ha q Hq) as (i' & m & ? & ? & ? & ? & ?). exists i', m. split_and!; try done. lia. }
  unfold connect. destruct (decide (a1 i = b1 j ∧ a2 i = b2 j)) as [[E1 E2]|Hne].
  - left. destruct (emit_ok i j I K F s (matching_nodes (a1 i) (a2 i)) Hi Hj Ej Ho Hg (ai_K _ _ _ _ _ Ha) (ai_order _ _ _ _ _ Ha) (ai_faces _ _ _ _ _ Ha)) as (s' & K' & F' & -> & Hg' & HK & HO & HF & T1 & T2 & T3 & T4 & T5 & T6).
    { intros _. split; [apply (Nat.le_trans _ 4); [apply (matching_four C i j)|clear; lia]|]. exact (matching_polygon z1 z2 Hz1 Hz2 C i j MA' MB' base I Ho E1 E2). }
    exists s'. split; [done|]. split; [|rewrite T3, T4, T5, T6; done]. exists I, K', F'. split; [done|]. split; [apply Hwk; try done; apply Ha|]. rewrite T1, T2. split; [done|].
    apply tinv_next; [done|]. injection E1 as E1 E1'. injection E2 as E2 E2'. apply not_true_iff_false. rewrite X_true. lia.
  - assert (Hcase : (∃ s1 I1, new_intersection (a1 i) (a2 i) (b1 j) (b2 j) s = Some s1 ∧ ginv I1 F s1 ∧ ainv i j I K F ∧ (∃ I', I1 = I ++ I') ∧ NoDup I1 ∧ (∀ q, q ∈ I1 → ∃ i' m, i' < n ∧ m < n ∧ q = quadr i' m ∧ X i' m = true ∧ (i' ≤ i ∨ (i' = i + 1 ∧ m ≤ j + 1))) ∧
        tinv i (j + 1) I1 (fs_top s1) ∧ fs_bot s1 = fs_bot s ∧ fs_sw s1 = fs_sw s ∧ fs_j s1 = j ∧ fs_k1 s1 = fs_k1 s ∧ fs_k2 s1 = fs_k2 s) ∨
      (new_intersection (a1 i) (a2 i) (b1 j) (b2 j) s = None ∧ over)).
    { unfold new_intersection. cbn [fst snd]. fold (X (i + 1) (j + 1)). rewrite Ej. destruct (X (i + 1) (j + 1)) eqn:HX.
      - assert (Hnew : quadr (i + 1) (j + 1) ∉ I).
        { intros Hq. destruct (ai_sound _ _ _ _ _ Ha _ Hq) as (i' & m & Hi' & Hm' & Eq & _ & Hpos). unfold quadr in Eq. injection Eq as E1 E2 E3 E4. destruct Hpos as [Hle|[-> Hle]].
          - pose proof (A1_mono i' i Hle ltac:(lia)). pose proof (A2_mono i' i Hle ltac:(lia)). lia.
          - pose proof (B1_mono m j Hle ltac:(lia)). pose proof (B2_mono m j Hle ltac:(lia)). lia. }
        set (I1 := I ++ [quadr (i + 1) (j + 1)]). assert (ND : NoDup I1) by (apply NoDup_app; split; [apply Ha|]; split; [intros q Hq ->%elem_of_list_singleton; done|apply NoDup_singleton]).
        assert (Hso1 : ∀ q, q ∈ I1 → ∃ i' m, i' < n ∧ m < n ∧ q = quadr i' m ∧ X i' m = true ∧ (i' ≤ i ∨ (i' = i + 1 ∧ m ≤ j + 1))).
        { intros q Hq. unfold I1 in Hq. apply elem_of_app in Hq as [Hq| ->%elem_of_list_singleton]; [by apply Hso|]. exists (i + 1), (j + 1). split_and!; try done. by right. }
        assert (Hl1 : length I1 = length I + 1) by (unfold I1; rewrite app_length; done).
        destruct Hg as [G1 G2 G3 G4 G5 G6 G7 G8].
        destruct (tinv_put i j I [quadr (i + 1) (j + 1)] (fs_top s) (Z.of_nat (g_nn (fs_g s))) Hj Ht) as [Hup Ht1].
        { unfold recd. fold (X (i + 1) (j + 1)). rewrite HX. exists (length I). split; [|by rewrite G5]. by apply list_lookup_middle. }
        rewrite Hup. cbn [mbind option_bind]. set (D := take (4 * off) (g_its g0) ++ quads I).
        assert (HcI : ∀ I : list (Z * Z * Z * Z), length (quads I) = 4 * length I). { clear. unfold quads. induction I as [|[[[a b] c] d] I IH]; [done|]. cbn. cbn in IH. lia. }
        assert (HD : length D = 4 * (off + length I)) by (unfold D; rewrite app_length, take_length, HcI; lia).
        assert (Hits : g_its (fs_g s) = D ++ drop (4 * (off + length I)) (g_its g0)) by (rewrite G6; unfold D; by rewrite <- app_assoc).
        assert (HlI : length (g_its (fs_g s)) = length (g_its g0)) by (rewrite Hits, app_length, drop_length, HD; lia).
        destruct (decide (4 * (off + length I) + 4 ≤ length (g_its g0))) as [Hfit|Hfit].
        + left. rewrite (memcpy_Some (g_its (fs_g s))) by (cbn; lia). cbn [mbind option_bind]. eexists _, I1. split; [done|]. cbn [fs_g fs_f fs_c fs_ip fs_top fs_bot fs_sw fs_j fs_k1 fs_k2].
          split; [|split_and!; try done; by eexists]. split; cbn [fs_g fs_f fs_c fs_ip g_nn g_its g_m g_n g_tag g_np]; try done.
          * destruct G1 as [J1 J2 J3 J4 J5 J6 J7 J8 J9]. by split.
          * lia.
          * rewrite G5, Hl1. lia.
          * rewrite G4, Hits, <- HD, take_app. rewrite drop_app_ge by lia. rewrite drop_drop. rewrite HD, Hl1. replace (quads I1) with (quads I ++ quads [quadr (i + 1) (j + 1)]) by (unfold quads, I1; by rewrite fmap_app, concat_app).
            unfold D. rewrite <- !app_assoc. do 3 f_equal. cbn [app]. unfold quads, quadr. cbn. f_equal. lia.
          * lia.
        + right. rewrite G4. rewrite memcpy_beyond by (done || (rewrite HlI; cbn; lia)). cbn [mbind option_bind]. split; [done|].
          exists I1. split; [done|]. split; [|lia]. intros q Hq. destruct (Hso1 q Hq) as (i' & m & ? & ? & ? & ? & _). by exists i', m.
      - left. assert (Hr : rcd (I ++ []) (i + 1) (j + 1) (-1)%Z) by (unfold recd; fold (X (i + 1) (j + 1)); by rewrite HX).
        destruct (tinv_put i j I [] (fs_top s) (-1)%Z Hj Ht Hr) as [-> Ht1]. cbn [mbind option_bind]. rewrite app_nil_r in Ht1. eexists _, I. split; [done|]. cbn [fs_g fs_f fs_c fs_ip fs_top fs_bot fs_sw fs_j fs_k1 fs_k2].
        split; [destruct Hg as [G1 G2 G3 G4 G5 G6 G7 G8]; by split|]. split; [done|]. split; [exists []; by rewrite app_nil_r|]. split; [apply Ha|]. split_and!; done. }
    destruct Hcase as [(s1 & I1 & -> & Hg1 & _ & [I' EI] & ND & Hso1 & Ht1 & T1 & T2 & T3 & T4 & T5)|[-> Hov]]; cbn [mbind option_bind]; [|by right]. left.
    assert (Hb1 : binv i I1 (fs_bot s1)) by (rewrite T1, EI; by apply binv_mono).
    rewrite T3. destruct (proj2 Hb1 j ltac:(lia)) as (i0 & -> & R0), (proj2 Hb1 (j + 1) ltac:(lia)) as (i1 & -> & R1). cbn [mbind option_bind].
    destruct (proj2 Ht1 j ltac:(lia)) as (i2 & -> & R2), (proj2 Ht1 (j + 1) ltac:(lia)) as (i3 & -> & R3). cbn [mbind option_bind]. rewrite decide_True in R2 by lia. rewrite decide_True in R3 by lia.
    assert (HF1 : Forall2 (face_ok I1) K F). { eapply Forall2_impl; [apply (ai_faces _ _ _ _ _ Ha)|]. intros k x Hx. rewrite EI. by apply face_ok_mono. }
    assert (Haux : ∃ s' K' F', emit i (a1 i) (b1 j) (compute_face_topology (a1 i) (a2 i) (b1 j) (b2 j) i0 i1 i2 i3) s1 = Some s' ∧ ginv I1 F' s' ∧
      (∀ a b, (a, b) ∈ K' ↔ a + 1 < n ∧ b + 1 < n ∧ good a b ∧ (a < i ∨ (a = i ∧ b < j + 1))) ∧
      (∀ u v a b a' b', u < v → K' !! u = Some (a, b) → K' !! v = Some (a', b') → a < a' ∨ (a = a' ∧ b < b')) ∧ Forall2 (face_ok I1) K' F' ∧
      fs_top s' = fs_top s1 ∧ fs_bot s' = fs_bot s1 ∧ fs_sw s' = fs_sw s1 ∧ fs_j s' = fs_j s1 ∧ fs_k1 s' = fs_k1 s1 ∧ fs_k2 s' = fs_k2 s1).
    { apply (emit_ok i j I1 K F s1); try done; [apply Ha|apply Ha|].
      intros Hgood. destruct (overlap_meaningful i j Hi Hj Hgood) as [_ Hpos]. pose proof (corners_nodes z1 z2 Hz1 Hz2 C i j MA' MB' Hpos base I1 i0 i1 i2 i3 Ho R0 R1 R2 R3) as Hc. split.
      - rewrite <- (Forall2_length _ _ _ Hc). by apply (corners_six z1 z2 Hz1 Hz2 C i j MA' MB').
      - exists (corners C i j). split; [by apply corners_polygon|done]. }
    destruct Haux as (s' & K' & F' & -> & Hg' & HK & HO & HF & U1 & U2 & U3 & U4 & U5 & U6).
    exists s'. split; [done|]. split; [|rewrite U3, U4, U5, U6, T2, T3, T4, T5; done]. exists I1, K', F'. split; [done|].
    split; [apply Hwk; try done; intros q Hq; rewrite EI; apply elem_of_app; by left|]. rewrite U1, U2. done.
Qed.

(** ** The loops *)
Definition winv (i j : nat) (s : fstate) : Prop := pinv i j s ∧ fs_j s = j ∧ kinv (i + 1) s.
Lemma fields_pinv i j s s' : fs_g s' = fs_g s → fs_f s' = fs_f s → fs_c s' = fs_c s → fs_ip s' = fs_ip s → fs_top s' = fs_top s → fs_bot s' = fs_bot s → pinv i j s → pinv i j s'.
Proof.
  intros E1 E2 E3 E4 E5 E6 (I & K & F & Hg & Ha & Hb & Ht). exists I, K, F. rewrite E5, E6. split; [|done]. destruct Hg as [G1 G2 G3 G4 G5 G6 G7 G8]. split; rewrite ?E1, ?E2, ?E3, ?E4; done.
Qed.
Lemma ainv_skip i j I K F : i + 1 < n → j + 1 < n → ¬ overlap z1 z2 C i j → ainv i j I K F → ainv i (j + 1) I K F.
Proof.
  intros Hi Hj Hno [As Ac And AK Ao Af]. split; try done.
  - intros q Hq. destruct (As q Hq) as (i' & m & ? & ? & ? & ? & ?). exists i', m. split_and!; try done. lia.
  - intros a b. rewrite AK. split; intros (? & ? & Hg & Hab); split_and!; try done; [lia|]. destruct (decide (a = i ∧ b = j)) as [[-> ->]|]; [destruct Hg; done|lia].
Qed.
Lemma inner_step_ok i j s : i + 1 < n → j + 1 < n → (A1 C i ≠ A1 C (i + 1) ∨ A2 C i ≠ A2 C (i + 1)) → winv i j s →
  (∃ s', inner_step plist p0 p1 p2 p3 i s = Some s' ∧ winv i (j + 1) s' ∧ fs_sw s' = fs_sw s) ∨ (inner_step plist p0 p1 p2 p3 i s = None ∧ over).
Proof using Hn HcA HcB Hz1 Hz2 Hm Hnn HA1 HA2 HB1 HB2.
  intros Hi Hj Ta (Hp & Ej & Hk1 & Hk2 & Hkn). unfold inner_step. rewrite (ends_ok p0 (A1 C)), (ends_ok p1 (A2 C)) by done. rewrite Ej. rewrite (ends_ok p2 (B1 C)), (ends_ok p3 (B2 C)) by done. cbn [mbind option_bind fst snd].
  destruct (decide (B1 C j = B1 C (j + 1) ∧ B2 C j = B2 C (j + 1))) as [[E1 E2]|Hne].
  { left. destruct Hp as (I & K & F & Hg & Ha & Hb & Ht). destruct (proj2 Ht j ltac:(lia)) as (x & Hx & Hr). rewrite Hx. cbn [mbind option_bind]. rewrite decide_True in Hr by lia.
    destruct (tinv_put i j I [] (fs_top s) x Hj Ht) as [-> Ht']. { rewrite app_nil_r. unfold recd in *. rewrite <- E1, <- E2. done. }
    cbn [mbind option_bind]. rewrite app_nil_r in Ht'. eexists. split; [done|]. split; [|done]. split; [|done]. exists I, K, F. cbn [fs_top fs_bot].
    split; [destruct Hg as [G1 G2 G3 G4 G5 G6 G7 G8]; by split|]. split; [|done]. apply ainv_skip; try done. rewrite overlap_iff by done. intros (_ & Tb & _). lia. }
  assert (Tb : B1 C j ≠ B1 C (j + 1) ∨ B2 C j ≠ B2 C (j + 1)) by lia.
  assert (Hmid : (∃ s', (if FI i j then connect i (a1 i) (a2 i) (b1 j) (b2 j) s else Some s) = Some s' ∧ pinv i (j + 1) s' ∧ fs_sw s' = fs_sw s ∧ fs_j s' = j ∧ fs_k1 s' = fs_k1 s ∧ fs_k2 s' = fs_k2 s) ∨
    ((if FI i j then connect i (a1 i) (a2 i) (b1 j) (b2 j) s else Some s) = None ∧ over)).
  { destruct (FI i j) eqn:HFI; [by apply connect_ok|]. left. exists s. split; [done|]. split; [|done]. destruct Hp as (I & K & F & Hg & Ha & Hb & Ht). exists I, K, F. split; [done|]. split; [|split; [done|]].
    - apply ainv_skip; try done. rewrite overlap_iff by done. intros (_ & _ & E). congruence.
    - apply tinv_next; [done|]. apply not_true_iff_false. intros HX. assert (FI i j = true) by (apply FI_true; by right; right). congruence. }
  destruct Hmid as [(s' & -> & Hp' & T1 & T2 & T3 & T4)|[-> Hov]]; cbn [mbind option_bind]; [|by right]. left. eexists. split; [done|]. split; [|done]. split; [by apply (fields_pinv i (j + 1) s')|]. cbn [fs_j fs_k1 fs_k2]. split; [lia|]. unfold kinv. cbn [fs_k1 fs_k2]. rewrite T2, T3, T4.
  split_and!; case_decide; first [done|by right|lia].
Qed.
(** The loop over [j] has seen everything. *)
Lemma inner_done i j s : i + 1 < n → (j = n - 1 ∨ (A1 C (i + 1) ≤ B1 C j ∧ A2 C (i + 1) ≤ B2 C j)%Z) → j < n → pinv i j s →
  ∃ I K F, ginv I F s ∧ ainv (i + 1) 0 I K F ∧ binv (i + 1) I (fs_top s).
Proof using HcA HcB Hz1 Hz2.
  clear Hm Hn Hnn.
  intros Hi Hend Hj (I & K & F & Hg & Ha & Hb & Ht). exists I, K, F. split; [done|].
  assert (Hb' : binv (i + 1) I (fs_top s)).
  { destruct Ht as [Hl Ht]. split; [done|]. intros m Hm'. destruct (Ht m Hm') as (x & Hx & Hr). exists x. split; [done|]. destruct (decide (m ≤ j)); [done|]. subst x.
    assert (HX : X (i + 1) m = false). { apply not_true_iff_false. rewrite X_true. destruct Hend as [->|[H1 H2]]; [lia|]. pose proof (B1_mono j m ltac:(lia) Hm'). pose proof (B2_mono j m ltac:(lia) Hm'). lia. }
    unfold recd. fold (X (i + 1) m). by rewrite HX. }
  split; [|done]. destruct Ha as [As Ac And AK Ao Af]. split; try done.
  - intros q Hq. destruct (As q Hq) as (i' & m & ? & ? & ? & ? & ?). exists i', m. split_and!; try done. lia.
  - intros i' m Hi' Hm' HX. destruct (decide (i' ≤ i)); [by apply Ac|]. assert (i' = i + 1) as -> by lia. destruct (proj2 Hb' m Hm') as (x & _ & Hr). unfold recd in Hr. fold (X (i + 1) m) in Hr. rewrite HX in Hr. destruct Hr as (k & Hk & _). by eapply elem_of_list_lookup_2.
  - intros a b. rewrite AK. split; intros (? & ? & Hgd & Hab); split_and!; try done; [lia|]. destruct (decide (a = i ∧ j ≤ b)) as [[-> Hle]|]; [|lia]. exfalso. destruct Hend as [->|[H1 H2]]; [lia|]. destruct Hgd as [_ Ho]. revert Ho. apply above_none; [done|done| |].
    + pose proof (B1_mono j b ltac:(lia) ltac:(lia)). lia.
    + pose proof (B2_mono j b ltac:(lia) ltac:(lia)). lia.
Qed.
Lemma inner_ok fuel i j s : i + 1 < n → (A1 C i ≠ A1 C (i + 1) ∨ A2 C i ≠ A2 C (i + 1)) → j < n → n - j ≤ fuel → winv i j s →
  (∃ s' I K F, inner fuel n plist p0 p1 p2 p3 i s = Some s' ∧ ginv I F s' ∧ ainv (i + 1) 0 I K F ∧ binv (i + 1) I (fs_top s') ∧ kinv (i + 1) s' ∧ length (fs_bot s') = n ∧ fs_sw s' = fs_sw s) ∨
  (inner fuel n plist p0 p1 p2 p3 i s = None ∧ over).
Proof using Hn HcA HcB Hz1 Hz2 Hm Hnn HA1 HA2 HB1 HB2.
  intros Hi Ta. revert j s. induction fuel as [|fuel IH]; intros j s Hj Hf Hw; [lia|]. pose proof Hw as (Hp & Ej & Hk). cbn [inner]. rewrite Ej.
  assert (Hstop : (j = n - 1 ∨ (A1 C (i + 1) ≤ B1 C j ∧ A2 C (i + 1) ≤ B2 C j)%Z) → ∃ s' I K F, Some s = Some s' ∧ ginv I F s' ∧ ainv (i + 1) 0 I K F ∧ binv (i + 1) I (fs_top s') ∧ kinv (i + 1) s' ∧ length (fs_bot s') = n ∧ fs_sw s' = fs_sw s).
  { intros Hend. destruct (inner_done i j s Hi Hend Hj Hp) as (I & K & F & ? & ? & ?). exists s, I, K, F. split_and!; try done; try apply Hk. destruct Hp as (I' & K' & F' & _ & _ & [? _] & _). done. }
  destruct (decide (j < n - 1)) as [Hlt|Hge]; [|left; apply Hstop; left; lia].
  rewrite (HB1 j), (HA1 (i + 1)), (HB2 j), (HA2 (i + 1)) by lia. cbn [mbind option_bind].
  destruct (decide (B1 C j < A1 C (i + 1) ∨ B2 C j < A2 C (i + 1))%Z) as [Hgo|Hno]; [|left; apply Hstop; right; lia].
  destruct (inner_step_ok i j s Hi ltac:(lia) Ta Hw) as [(s' & -> & Hw' & Hsw)|[-> Hov]]; cbn [mbind option_bind]; [|by right].
  destruct (IH (j + 1) s' ltac:(lia) ltac:(lia) Hw') as [(s'' & I & K & F & E & ? & ? & ? & ? & ? & ?)|?]; [left|by right]. exists s'', I, K, F. split_and!; try done; try apply Hk. congruence.
Qed.

Definition oinv (i : nat) (s : fstate) : Prop :=
  (∃ I K F, ginv I F s ∧ ainv i 0 I K F ∧ binv i I (fs_bot s)) ∧ fs_top s = replicate n (-1)%Z ∧ fs_j s = Nat.min (fs_k1 s) (fs_k2 s) ∧ kinv i s.
Lemma reset_ok (l : list Z) : length l = n → for_loop n 0 (λ j top, upd top j (-1)%Z) l = Some (replicate n (-1)%Z).
Proof.
  intros Hl. destruct (for_loop_inv (λ k t, length t = n ∧ ∀ m, m < k → t !! m = Some (-1)%Z) n 0 (λ j top, upd top j (-1)%Z) l) as (t & -> & Ht1 & Ht2).
  - split; [done|lia].
  - intros k t Hk [H1 H2]. rewrite upd_Some by lia. eexists. split; [done|]. split; [by rewrite insert_length|]. intros m Hm'. destruct (decide (m = k)) as [->|]; [rewrite list_lookup_insert by lia; done|]. rewrite list_lookup_insert_ne by lia. apply H2. lia.
  - f_equal. apply list_eq. intros m. destruct (decide (m < n)).
    + rewrite Ht2, lookup_replicate_2 by lia. done.
    + rewrite !lookup_ge_None_2; [done|rewrite replicate_length; lia|lia].
Qed.
Lemma outer_step_ok i s : i + 1 < n → oinv i s → (∃ s', outer_step n plist p0 p1 p2 p3 i s = Some s' ∧ oinv (i + 1) s') ∨ (outer_step n plist p0 p1 p2 p3 i s = None ∧ over).
Proof using Hn HcA HcB Hz1 Hz2 Hm Hnn HA1 HA2 HB1 HB2.
  intros Hi ((I & K & F & Hg & Ha & Hb) & Ht & Ej & Hk1 & Hk2 & Hkn). unfold outer_step. rewrite (ends_ok p0 (A1 C)), (ends_ok p1 (A2 C)) by done. cbn [mbind option_bind fst snd]. pose proof (MAi i Hi) as MA'.
  destruct (decide (A1 C i = A1 C (i + 1) ∧ A2 C i = A2 C (i + 1))) as [[E1 E2]|Hne].
  { left. exists s. split; [done|]. assert (Hb' : binv (i + 1) I (fs_bot s)) by (destruct Hb as [Hl Hb]; split; [done|]; intros m Hm'; destruct (Hb m Hm') as (x & ? & ?); exists x; rewrite <- E1, <- E2; done).
    split; [|split; [done|]; split; [done|]; unfold kinv; rewrite <- E1, <- E2; done]. exists I, K, F. split; [done|]. split; [|done]. destruct Ha as [As Ac And AK Ao Af]. split; try done.
    - intros q Hq. destruct (As q Hq) as (i' & m & ? & ? & ? & ? & ?). exists i', m. split_and!; try done. lia.
    - intros i' m Hi' Hm' HX. destruct (decide (i' ≤ i)); [by apply Ac|]. assert (i' = i + 1) as -> by lia. unfold quadr, X in *. rewrite <- E1, <- E2 in *. by apply (Ac i).
    - intros a b. rewrite AK. split; intros (? & ? & Hgd & Hab); split_and!; try done; [lia|]. destruct (decide (a = i)) as [->|]; [|lia]. destruct Hgd as [_ Ho]. apply overlap_iff in Ho as (Ta & _); [lia|done|done]. }
  assert (Ta : A1 C i ≠ A1 C (i + 1) ∨ A2 C i ≠ A2 C (i + 1)) by lia.
  set (j := Nat.min (fs_k1 s) (fs_k2 s)) in *.
  assert (Hlow : ∀ m, 0 < j → m ≤ j → (B1 C m ≤ A1 C i ∧ B2 C m ≤ A2 C i)%Z).
  { intros m Hj0 Hmj. pose proof (B1_mono m (fs_k1 s) ltac:(lia) ltac:(lia)). pose proof (B2_mono m (fs_k2 s) ltac:(lia) ltac:(lia)). destruct Hk1, Hk2; lia. }
  assert (Hlow0 : ∀ m, m ≤ j → (B1 C m ≤ A1 C i ∧ B2 C m ≤ A2 C i)%Z).
  { intros m Hmj. destruct (decide (0 < j)); [by apply Hlow|]. assert (m = 0) as -> by lia. destruct (co_first _ _ _ HcB) as [-> ->]. apply (min_le _ _ i HcA). lia. }
  assert (Hw : winv i j s).
  { split; [|split; [done|]].
    - exists I, K, F. split; [done|]. split; [|split; [done|]].
      + destruct Ha as [As Ac And AK Ao Af]. split; try done.
        * intros q Hq. destruct (As q Hq) as (i' & m & ? & ? & ? & ? & ?). exists i', m. split_and!; try done. lia.
        * intros a b. rewrite AK. split; intros (? & ? & Hgd & Hab); split_and!; try done; [lia|]. destruct (decide (a = i)) as [->|]; [|lia]. exfalso. destruct Hgd as [_ Ho]. revert Ho. apply below_none; [done|done|apply Hlow0; lia|apply Hlow0; lia].
      + split; [by rewrite Ht, replicate_length|]. intros m Hm'. exists (-1)%Z. rewrite Ht, lookup_replicate_2 by done. split; [done|]. destruct (decide (m ≤ j)) as [Hmj|]; [|done].
        assert (HX : X (i + 1) m = false) by (apply not_true_iff_false; rewrite X_true; pose proof (Hlow0 m Hmj); lia). unfold recd. fold (X (i + 1) m). by rewrite HX.
    - split_and!; try done; [destruct Hk1 as [?|?]; [by left|right; lia]|destruct Hk2 as [?|?]; [by left|right; lia]| |]; lia. }
  destruct (inner_ok n i j s Hi Ta ltac:(lia) ltac:(lia) Hw) as [(s' & I' & K' & F' & -> & Hg' & Ha' & Hb' & Hk' & Hl' & Hsw)|[-> Hov]]; cbn [mbind option_bind]; [|by right].
  left. rewrite reset_ok by done. cbn [mbind option_bind]. eexists. split; [done|]. split; [|split; [done|]; split; [done|]; exact Hk']. exists I', K', F'. cbn [fs_bot]. split; [|done]. destruct Hg' as [G1 G2 G3 G4 G5 G6 G7 G8]. by split.
Qed.

Definition over_spec : Prop := ∃ I, NoDup I ∧
  (∀ p1 p2 q1 q2, (p1, p2, q1, q2) ∈ I → ∃ i j, i < n ∧ j < n ∧ p1 = A1 C i ∧ p2 = A2 C i ∧ q1 = B1 C j ∧ q2 = B2 C j ∧ crossing z1 z2 p1 p2 q1 q2) ∧
  length (g_its g0) < 4 * (off + length I).
Lemma over_over : over → over_spec.
Proof using Hz1 Hz2.
  intros (I & ND & Hs & Hl). exists I. split; [done|]. split; [|done]. intros r1 r2 q1 q2 Hq. destruct (Hs _ Hq) as (i & m & Hi & Hm' & E & HX). unfold quadr in E. injection E as -> -> -> ->. exists i, m. split_and!; try done. by apply crossing_iff.
Qed.
Lemma find_ok : 0 < n → holds g0 F0 → 4 * off ≤ length (g_its g0) →
  let r := findconnections n plist p0 p1 p2 p3 (4 * off) (replicate (2 * n) (-1)%Z) g0 in
  (∃ g' K F I, r = Some (g', replicate (2 * n) (-1)%Z) ∧ holds g' (F0 ++ F) ∧ right_connections z1 z2 n C cell_index cell_index base K F I ∧
    length F ≤ n * n ∧
    g_nn g' = base + length I ∧ g_its g' = take (4 * off) (g_its g0) ++ quads I ++ drop (4 * (off + length I)) (g_its g0) ∧
    4 * (off + length I) ≤ length (g_its g0) ∧ g_m g' = g_m g0 ∧ g_n g' = g_n g0 ∧ g_tag g' = g_tag g0 ∧ g_np g' = g_np g0) ∨
  (r = None ∧ over_spec).
Proof using Hn HcA HcB Hz1 Hz2 Hm Hnn HA1 HA2 HB1 HB2.
  intros Hpos Hh Hoff r. unfold r, findconnections. pose proof (ho_ptr _ _ Hh (length F0) ltac:(done)) as Hf. rewrite firstn_all in Hf. rewrite (ho_nf _ _ Hh), Hf. cbn [mbind option_bind].
  assert (Es : replicate (2 * n) (-1)%Z = replicate n (-1)%Z ++ replicate n (-1)%Z) by (rewrite <- replicate_add; f_equal; lia).
  rewrite Es, (slice_Some _ 0 n), (slice_Some _ n n) by (rewrite app_length, !replicate_length; lia). cbn [mbind option_bind]. rewrite drop_0. rewrite take_app_le by (rewrite replicate_length; lia). rewrite firstn_all2 by (rewrite replicate_length; lia).
  rewrite drop_app_ge by (rewrite replicate_length; lia). rewrite replicate_length, Nat.sub_diag, drop_0. rewrite firstn_all2 by (rewrite replicate_length; lia).
  set (s0 := FState g0 _ _ _ _ _ _ _ _ _).
  destruct (for_loop_or oinv over (outer_step n plist p0 p1 p2 p3) (n - 1) 0 s0) as [(s' & -> & (I & K & F & Hg & Ha & Hb) & Ht & _)|[-> Hov]].
  - split; [|split; [done|]; split; [done|]; split_and!; try (by left); cbn; lia].
    exists [], [], []. split; [|split].
    + split; cbn [fs_g fs_f fs_c fs_ip s0 length]; rewrite ?app_nil_r, ?Nat.add_0_r; try done. cbn. by rewrite take_drop.
    + split; try done.
      * intros q Hq. by apply elem_of_nil in Hq.
      * intros i' m Hi' Hm' HX. assert (i' = 0) as -> by lia. rewrite X_first in HX by done. done.
      * apply NoDup_nil_2.
      * intros a b. split; [intros H; by apply elem_of_nil in H|lia].
    + split; [cbn [fs_bot s0]; apply replicate_length|]. intros m Hm'. exists (-1)%Z. cbn [fs_bot s0]. rewrite lookup_replicate_2 by done. split; [done|]. unfold recd. fold (X 0 m). by rewrite X_first.
  - intros i s Hi1 Hi2 Hs. apply outer_step_ok; [lia|done].
  - left. cbn [mbind option_bind]. rewrite Nat.add_0_l in Ha, Hb.
    assert (Hbot : fs_bot s' = replicate n (-1)%Z).
    { destruct Hb as [Hl Hb]. apply list_eq. intros m. destruct (decide (m < n)) as [Hm'|]; [|rewrite !lookup_ge_None_2; [done|rewrite replicate_length; lia|lia]]. rewrite lookup_replicate_2 by done.
      destruct (Hb m Hm') as (x & -> & Hr). unfold recd in Hr. fold (X (n - 1) m) in Hr. rewrite X_last in Hr by done. by rewrite Hr. }
    exists (fs_g s'), K, F, I. rewrite Ht, Hbot. split; [by destruct (fs_sw s')|]. destruct Hg as [G1 G2 G3 G4 G5 G6 G7 (G8 & G9 & G10 & G11)]. destruct Ha as [As Ac And AK Ao Af].
    split; [done|]. split; [|split_and!; try done; rewrite <- (Forall2_length _ _ _ Af); apply few_pairs; [intros a b Hab%AK; lia|done]]. split; try done.
    + intros i j. rewrite AK. unfold good. split; intros (? & ? & ?); split_and!; try done; naive_solver lia.
    + eapply Forall2_impl; [exact Af|]. intros [a b] x (? & ? & ? & ?). done.
    + intros r1 r2 q1 q2. split.
      * intros Hq. destruct (As _ Hq) as (i & m & Hi & Hm' & E & HX & _). unfold quadr in E. injection E as -> -> -> ->. exists i, m. split_and!; try done. by apply crossing_iff.
      * intros (i & j & Hi & Hj & -> & -> & -> & -> & Hc). apply (Ac i j); [lia|done|]. by apply (crossing_iff z1 z2 Hz1 Hz2).
  - right. cbn [mbind option_bind]. split; [done|]. by apply over_over.
Qed.
End find.
