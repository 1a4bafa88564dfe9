(** process_vertical_faces. *)
From Coq Require Import Reals Lra Psatz.
From Verif Require Import Base LoopModel LoopProof UniqModel PrepModel HorizSpec HorizProof VertModel VertSpec VertGeom VertSlots VertLoop.
Unset Default Proof Using.

(** ** Arrays *)
Lemma grow_le cur need step : cur ≤ grow cur need step.
Proof. unfold grow. destruct (decide _); lia. Qed.
Lemma checkmemory_its junk nz g g' F : holds g F → checkmemory junk nz g = Some g' → length (g_its g) ≤ 4 * g_m g →
  length (g_its g) ≤ length (g_its g') ∧ length (g_its g') ≤ 4 * g_m g' ∧ ∃ r, g_its g' = g_its g ++ r.
Proof.
  intros [Hnf _ _ Hp _ _ _ _ _] Hc Hl. unfold checkmemory in Hc. set (r := (2 * nz + 2) * (2 * nz + 2)) in *.
  assert (Hpl := Hp (length F) ltac:(done)). rewrite Hnf, Hpl in Hc. cbn [mbind option_bind] in Hc. set (m := grow (g_m g) (length F + r) (2 * r)) in *.
  assert (Em : g_m g ≤ m) by (unfold m; apply grow_le).
  assert (E : g_m g' = m ∧ g_its g' = if decide (m = g_m g) then g_its g else realloc_arr junk (4 * m) (g_its g)).
  { injection Hc as <-. destruct (decide (m = g_m g)); destruct (decide _); done. }
  clear Hc. destruct E as [-> ->]. destruct (decide (m = g_m g)) as [->|Hne]; [split; [done|]; split; [done|]; exists []; by rewrite app_nil_r|].
  destruct (realloc_app junk (4 * m) (g_its g) [] ltac:(lia)) as [r' E]. rewrite app_nil_r in E. rewrite E, app_length.
  assert (length (realloc_arr junk (4 * m) (g_its g)) = 4 * m) as L by apply realloc_arr_length. rewrite E, app_length in L. split; [lia|]. split; [lia|]. by eexists.
Qed.

Notation pairs F := (concat ((λ x, [fc_a x; fc_b x]) <$> F)).
Lemma pairs_even (F : list face) k : pairs F !! (2 * k) = fc_a <$> F !! k.
Proof.
  revert k. induction F as [|x F IH]; intros [|k]; try done. replace (2 * S k) with (S (S (2 * k))) by lia. cbn [fmap list_fmap concat app lookup list_lookup]. apply IH.
Qed.
Lemma pairs_odd (F : list face) k : pairs F !! (2 * k + 1) = fc_b <$> F !! k.
Proof.
  revert k. induction F as [|x F IH]; intros [|k]; try done. replace (2 * S k + 1) with (S (S (2 * k + 1))) by lia. cbn [fmap list_fmap concat app lookup list_lookup]. apply IH.
Qed.

(** A loop that changes every second entry. *)
Lemma step_loop (h : Z → Z) (f : nat → list Z → option (list Z)) p m (l : list Z) :
  (∀ k l' v, k < m → l !! (p + 2 * k) = Some v → l' !! (p + 2 * k) = Some v → f k l' = Some (<[p + 2 * k := h v]> l')) → (∀ k, k < m → p + 2 * k < length l) →
  ∃ l', for_loop m 0 f l = Some l' ∧ length l' = length l ∧ (∀ k, k < m → l' !! (p + 2 * k) = h <$> l !! (p + 2 * k)) ∧
    (∀ t, (∀ k, k < m → t ≠ p + 2 * k) → l' !! t = l !! t).
Proof.
  intros Hf Hl.
  destruct (for_loop_inv (λ m' l', length l' = length l ∧ (∀ k, k < m' → l' !! (p + 2 * k) = h <$> l !! (p + 2 * k)) ∧
    (∀ t, (∀ k, k < m' → t ≠ p + 2 * k) → l' !! t = l !! t)) m 0 f l) as (l' & E & H).
  - split; [done|]. split; [intros; lia|]. done.
  - intros k l' [_ Hk] (H1 & H2 & H3). cbn in Hk. assert (E : l' !! (p + 2 * k) = l !! (p + 2 * k)) by (apply H3; intros; lia).
    destruct (l !! (p + 2 * k)) as [v|] eqn:Ev; [|apply lookup_ge_None in Ev; specialize (Hl k Hk); lia].
    exists (<[p + 2 * k := h v]> l'). split; [by apply Hf|]. split; [by rewrite insert_length|]. split.
    + intros k' Hk'. destruct (decide (k' = k)) as [->|]; [rewrite list_lookup_insert by (apply lookup_lt_Some in E; done); by rewrite Ev|]. rewrite list_lookup_insert_ne by lia. apply H2. lia.
    + intros t Ht. rewrite list_lookup_insert_ne by (apply not_eq_sym, Ht; lia). apply H3. intros k' Hk'. apply Ht. lia.
  - exists l'. split; [done|]. exact H.
Qed.

(** What compute_cell_index makes of a number of a cell in its column. *)
Definition cellno (nx ny : nat) (i j v : Z) : Z :=
  if decide ((0 ≤ i < Z.of_nat nx ∧ 0 ≤ j < Z.of_nat ny)%Z) then (if decide (v = -1)%Z then (-1)%Z else cid nx ny (Z.to_nat i) (Z.to_nat j) (Z.to_nat v)) else (-1)%Z.
Lemma cell_index_ok nx ny nz i j p m l :
  (∀ k, k < m → ∃ v, l !! (p + 2 * k) = Some v ∧ (v = -1 ∨ 0 ≤ v < Z.of_nat nz)%Z) →
  ∃ l', compute_cell_index nx ny nz i j p m l = Some l' ∧ length l' = length l ∧ (∀ k, k < m → l' !! (p + 2 * k) = cellno nx ny i j <$> l !! (p + 2 * k)) ∧
    (∀ t, (∀ k, k < m → t ≠ p + 2 * k) → l' !! t = l !! t).
Proof.
  intros Hv. assert (Hl : ∀ k, k < m → p + 2 * k < length l) by (intros k Hk; destruct (Hv k Hk) as (v & E & _); by eapply lookup_lt_Some).
  unfold compute_cell_index. destruct (decide _) as [Ho|Ho]; apply step_loop; try done.
  - intros k l' v Hk E1 E2. rewrite upd_Some by (by eapply lookup_lt_Some). unfold cellno. rewrite decide_False by lia. done.
  - intros k l' v Hk E1 E2. rewrite E2. cbn [mbind option_bind]. destruct (Hv k Hk) as (v' & E & Hr). rewrite E1 in E. injection E as <-.
    unfold cellno. rewrite (decide_True (P := (0 ≤ i < _ ∧ _)%Z)) by lia. destruct (decide (v = -1)%Z) as [->|Hne].
    + by rewrite list_insert_id.
    + rewrite decide_False by lia. unfold linearindex. rewrite decide_True by lia. cbn [mbind option_bind]. rewrite upd_Some by (by eapply lookup_lt_Some). done.
Qed.

Definition set_ab (fa fb : Z → Z) (x : face) : face := Face (fa (fc_a x)) (fb (fc_b x)) (fc_nodes x).
(** Both columns of neighbours. *)
Lemma both_index_ok nx ny nz i j i' j' g F0 F : holds g (F0 ++ F) →
  (∀ x, x ∈ F → (fc_a x = -1 ∨ 0 ≤ fc_a x < Z.of_nat nz)%Z ∧ (fc_b x = -1 ∨ 0 ≤ fc_b x < Z.of_nat nz)%Z) →
  ∃ nbr1 nbr2, compute_cell_index nx ny nz i j (2 * length F0) (length F) (g_nbr g) = Some nbr1 ∧
    compute_cell_index nx ny nz i' j' (2 * length F0 + 1) (length F) nbr1 = Some nbr2 ∧
    holds (set_nbr g nbr2) (F0 ++ (set_ab (cellno nx ny i j) (cellno nx ny i' j') <$> F)).
Proof.
  intros Hh HF. destruct (ho_nbr _ _ Hh) as [r Hr]. pose proof (nbr_length (F0 ++ F)) as HL. rewrite app_length in HL.
  assert (Hat : ∀ k x, F !! k = Some x → g_nbr g !! (2 * length F0 + 2 * k) = Some (fc_a x) ∧ g_nbr g !! (2 * length F0 + 1 + 2 * k) = Some (fc_b x)).
  { intros k x Hk. assert (k < length F) by (by eapply lookup_lt_Some). rewrite Hr, !lookup_app_l by lia. replace (2 * length F0 + 2 * k) with (2 * (length F0 + k)) by lia. replace (2 * length F0 + 1 + 2 * k) with (2 * (length F0 + k) + 1) by lia.
    rewrite pairs_even, pairs_odd, lookup_app_r by lia. replace (length F0 + k - length F0) with k by lia. by rewrite Hk. }
  destruct (cell_index_ok nx ny nz i j (2 * length F0) (length F) (g_nbr g)) as (n1 & E1 & L1 & H1 & H1').
  { intros k Hk. destruct (lookup_lt_is_Some_2 F k Hk) as [x Hx]. exists (fc_a x). split; [by apply Hat|]. apply HF. by eapply elem_of_list_lookup_2. }
  destruct (cell_index_ok nx ny nz i' j' (2 * length F0 + 1) (length F) n1) as (n2 & E2 & L2 & H2 & H2').
  { intros k Hk. destruct (lookup_lt_is_Some_2 F k Hk) as [x Hx]. exists (fc_b x). rewrite H1' by (intros; lia). split; [by apply Hat|]. apply HF. by eapply elem_of_list_lookup_2. }
  exists n1, n2. split; [done|]. split; [done|]. set (F' := _ <$> F). assert (LF : length F' = length F) by apply fmap_length.
  assert (En : fc_nodes <$> F0 ++ F' = fc_nodes <$> F0 ++ F). { rewrite !fmap_app. f_equal. unfold F'. rewrite <- list_fmap_compose. apply list_fmap_ext. done. }
  destruct Hh as [J1 _ J3 J4 J5 J6 J7 J8 J9]. split; cbn [g_nf g_nbr g_nodes g_ptr g_m g_n g_tag set_nbr].
  - rewrite J1, !app_length, LF. done.
  - exists r. apply list_eq. intros t. assert (LP : length (pairs (F0 ++ F')) = length (pairs (F0 ++ F))) by (rewrite !nbr_length, !app_length, LF; done).
    destruct (decide (2 * (length F0 + length F) ≤ t)) as [Ht|Ht].
    { rewrite H2', H1' by (intros; lia). rewrite Hr, !lookup_app_r by (rewrite ?LP; lia). by rewrite LP. }
    rewrite lookup_app_l by lia. pose proof (Nat.div_mod t 2 ltac:(done)) as Hd. pose proof (Nat.mod_upper_bound t 2 ltac:(done)) as Hm. set (s := t / 2) in *.
    destruct (decide (s < length F0)) as [Hs|Hs].
    + rewrite H2', H1' by (intros; lia). rewrite Hr, lookup_app_l by lia. destruct (decide (t mod 2 = 0)) as [Hz|Hz].
      * replace t with (2 * s) by lia. rewrite !pairs_even, !lookup_app_l by lia. done.
      * replace t with (2 * s + 1) by lia. rewrite !pairs_odd, !lookup_app_l by lia. done.
    + assert (Hk : s - length F0 < length F) by lia. destruct (lookup_lt_is_Some_2 F _ Hk) as [x Hx]. destruct (Hat _ _ Hx) as [Ha Hb].
      assert (Hx' : (F0 ++ F') !! s = Some (set_ab (cellno nx ny i j) (cellno nx ny i' j') x)) by (rewrite lookup_app_r by lia; unfold F'; by rewrite list_lookup_fmap, Hx).
      destruct (decide (t mod 2 = 0)) as [Hz|Hz].
      * replace t with (2 * s) by lia. rewrite pairs_even, Hx'. rewrite H2' by (intros; lia). replace (2 * s) with (2 * length F0 + 2 * (s - length F0)) by lia. rewrite H1, Ha by done. done.
      * replace t with (2 * s + 1) by lia. rewrite pairs_odd, Hx'. replace (2 * s + 1) with (2 * length F0 + 1 + 2 * (s - length F0)) by lia. rewrite H2, H1', Hb by (done || intros; lia). done.
  - by rewrite En.
  - intros k Hk. rewrite app_length, LF in Hk. rewrite J4 by (rewrite app_length; lia). f_equal. f_equal. f_equal. rewrite !fmap_take. by rewrite En.
  - rewrite app_length, LF. by rewrite app_length in J5.
  - by rewrite L2, L1.
  - done.
  - done.
  - done.
Qed.

(** The tags. *)
Lemma tags_ok g F T m t : holds g F → (∃ R, g_tag g = T ++ R) → length T + m ≤ g_m g →
  ∃ g', for_loop m (length T) (λ f g, put_tag g f t) g = Some g' ∧ holds g' F ∧ (∃ R, g_tag g' = T ++ replicate m t ++ R) ∧
    g_m g' = g_m g ∧ g_n g' = g_n g ∧ g_its g' = g_its g ∧ g_nn g' = g_nn g ∧ g_np g' = g_np g.
Proof.
  revert g T. induction m as [|m IH]; intros g T Hh [R HR] Hm; cbn [for_loop].
  { exists g. split; [done|]. split; [done|]. split; [by exists R|]. done. }
  destruct (put_tag_ok g F (length T) t Hh ltac:(lia)) as (g1 & -> & Hh1 & M1 & N1 & T1 & I1 & NN1 & NP1). cbn [mbind option_bind].
  destruct R as [|y R]. { pose proof (ho_ltag _ _ Hh) as L. rewrite HR, app_nil_r in L. lia. }
  assert (HT : g_tag g1 = (T ++ [t]) ++ R). { rewrite T1, HR. rewrite insert_app_r_alt by lia. rewrite Nat.sub_diag. cbn. by rewrite <- app_assoc. }
  destruct (IH g1 (T ++ [t]) Hh1 ltac:(by exists R)) as (g' & E & Hh' & [R' HR'] & M' & N' & I' & NN' & NP'); [rewrite app_length; cbn; lia|].
  rewrite app_length, Nat.add_1_r in E. cbn [length] in E. exists g'. split; [done|]. split; [done|]. split; [exists R'; rewrite HR', <- app_assoc; done|]. by rewrite M', N', I', NN', NP'.
Qed.

(** ** Places *)
Section proc.
Variables (nx ny nz : nat) (plist : list Z) (junk : Z) (dir : nat).
Notation n := (2 * nz + 2).
Notation pos i j := (n * (i + 2 * nx * j)).
Lemma positions i j : dir < 2 → i < nx + (1 - dir) → j < ny + dir → 0 < nx → 0 < ny →
  ∃ q0 q1 q2 q3, vector_positions (2 * nx) (2 * ny) (2 * (nz + 1)) (2 * i + dir) (2 * j + (1 - dir)) = [q0; q1; q2; q3] ∧
  (if decide (dir = 1) then (q2, q0, q3, q1) else (q0, q1, q2, q3)) =
  if decide (dir = 0) then (pos (2 * i - 1) (2 * j), pos (2 * i - 1) (2 * j + 1), pos (Nat.min (2 * i) (2 * nx - 1)) (2 * j), pos (Nat.min (2 * i) (2 * nx - 1)) (2 * j + 1))
  else (pos (2 * i + 1) (2 * j - 1), pos (2 * i) (2 * j - 1), pos (2 * i + 1) (Nat.min (2 * j) (2 * ny - 1)), pos (2 * i) (Nat.min (2 * j) (2 * ny - 1))).
Proof.
  intros Hd Hi Hj Hx Hy. eexists _, _, _, _. split; [unfold vector_positions; done|]. cbv zeta. replace (2 * (nz + 1)) with n by lia.
  destruct (decide (dir = 1)) as [->|]; [rewrite decide_False by done|rewrite decide_True by lia; assert (dir = 0) as -> by lia]; cbn [Nat.sub] in *.
  - replace (Nat.max 1 (2 * i + 1) - 1) with (2 * i) by lia. replace (Nat.min (2 * nx) (2 * i + 1 + 1) - 1) with (2 * i + 1) by lia.
    replace (Nat.max 1 (2 * j + 0) - 1) with (2 * j - 1) by lia. replace (Nat.min (2 * ny) (2 * j + 0 + 1) - 1) with (Nat.min (2 * j) (2 * ny - 1)) by lia. done.
  - replace (Nat.max 1 (2 * j + 1) - 1) with (2 * j) by lia. replace (Nat.min (2 * ny) (2 * j + 1 + 1) - 1) with (2 * j + 1) by lia.
    replace (Nat.max 1 (2 * i + 0) - 1) with (2 * i - 1) by lia. replace (Nat.min (2 * nx) (2 * i + 0 + 1) - 1) with (Nat.min (2 * i) (2 * nx - 1)) by lia. done.
Qed.
Hypothesis Hlen : length plist = n * (2 * nx * (2 * ny)).
Lemma lev_at i j k : i < 2 * nx → j < 2 * ny → k < n → plist !! (pos i j + k) = Some (lev nx nz plist i j k).
Proof using Hlen.
  intros Hi Hj Hk. unfold lev. destruct (lookup_lt_is_Some_2 plist (pos i j + k)) as [v Hv]; [|by rewrite Hv]. rewrite Hlen.
  assert (i + 2 * nx * j + 1 ≤ 2 * nx * (2 * ny)) by nia. nia.
Qed.
Hypothesis Hok : columns_ok nx ny nz plist.
Lemma pair_ok i j i' j' : i / 2 < nx → j / 2 < ny → i / 2 = i' / 2 → j / 2 = j' / 2 → column_ok n (lev nx nz plist i j) (lev nx nz plist i' j').
Proof using Hok.
  intros Hi Hj Ei Ej. pose proof (Nat.div_mod i 2 ltac:(done)) as D1. pose proof (Nat.div_mod j 2 ltac:(done)) as D2. pose proof (Nat.div_mod i' 2 ltac:(done)) as D3. pose proof (Nat.div_mod j' 2 ltac:(done)) as D4.
  pose proof (Nat.mod_upper_bound i 2 ltac:(done)) as M1. pose proof (Nat.mod_upper_bound j 2 ltac:(done)) as M2. pose proof (Nat.mod_upper_bound i' 2 ltac:(done)) as M3. pose proof (Nat.mod_upper_bound j' 2 ltac:(done)) as M4.
  rewrite <- Ei in D3. rewrite <- Ej in D4. rewrite D1, D2, D3, D4. by apply Hok.
Qed.
Lemma half_l a b : a = 2 * b ∨ a = 2 * b + 1 → a / 2 = b.
Proof. intros H. symmetry. destruct H as [-> | ->]; [rewrite Nat.mul_comm, Nat.div_mul; done|]. rewrite (Nat.mul_comm 2 b), Nat.add_comm, Nat.div_add by done. done. Qed.

Variables (zp : nat → Z → R).
Hypothesis Hzp : ∀ q p p', (p < p')%Z → (zp q p < zp q p')%R.
Hypothesis Hdir : dir < 2.
Hypothesis Hnx : 0 < nx.
Hypothesis Hny : 0 < ny.

Lemma meeting_ok i j : i < nx + (1 - dir) → j < ny + dir →
  column_ok n (A1 (meeting nx ny nz plist dir i j)) (A2 (meeting nx ny nz plist dir i j)) ∧
  column_ok n (B1 (meeting nx ny nz plist dir i j)) (B2 (meeting nx ny nz plist dir i j)).
Proof using Hok Hdir Hnx Hny.
  clear Hlen. intros Hi Hj. unfold meeting.
  assert (HL : ∀ x w, x ≤ w → 0 < w → (2 * x - 1) / 2 = x - 1 ∧ x - 1 < w ∧ Nat.min (2 * x) (2 * w - 1) / 2 = Nat.min x (w - 1) ∧ Nat.min x (w - 1) < w).
  { clear. intros x w H1 H2. split; [|split; [lia|split; [|lia]]]; [|apply half_l; lia]. destruct x; [done|]. apply half_l. lia. }
  destruct (decide (dir = 0)) as [->|]; cbn [A1 A2 B1 B2].
  - destruct (HL i nx ltac:(lia) Hnx) as (E1 & E2 & E3 & E4). rewrite (Nat.add_0_r ny) in Hj. assert ((2 * j) / 2 = j ∧ (2 * j + 1) / 2 = j) as [E5 E6] by (split; apply half_l; lia).
    split; apply pair_ok; rewrite ?E1, ?E3, ?E5, ?E6; done.
  - assert (dir = 1) as -> by lia. destruct (HL j ny ltac:(lia) Hny) as (E1 & E2 & E3 & E4). assert (i < nx) by lia. assert ((2 * i) / 2 = i ∧ (2 * i + 1) / 2 = i) as [E5 E6] by (split; apply half_l; lia).
    split; apply pair_ok; rewrite ?E1, ?E3, ?E5, ?E6; done.
Qed.

(** ** State *)
Variables (np cap : nat).
Notation tag := (if decide (dir = 0) then LEFT else BACK).
Record vinv (F : list face) (T : list ftag) (I : list (Z * Z * Z * Z)) (s : pgrid * list Z) : Prop := {
  vi_holds : holds s.1 F;
  vi_tag : ∃ R, g_tag s.1 = T ++ R;
  vi_T : length T = length F;
  vi_nn : g_nn s.1 = np + length I;
  vi_np : g_np s.1 = np;
  vi_its : ∃ r, g_its s.1 = quads I ++ r;
  vi_cap : cap ≤ length (g_its s.1);
  vi_m : length (g_its s.1) ≤ 4 * g_m s.1;
  vi_work : s.2 = replicate (2 * n) (-1)%Z }.
Lemma quads_length I : length (quads I) = 4 * length I.
Proof. unfold quads. induction I as [|[[[a b] c] d] I IH]; [done|]. cbn. cbn in IH. lia. Qed.

Lemma quads_app I J : quads (I ++ J) = quads I ++ quads J.
Proof. unfold quads. by rewrite fmap_app, concat_app. Qed.
Lemma side_cellno i j s c : s + 1 < n → cell_index s c → side nx ny i j s (cellno nx ny i j c).
Proof.
  intros Hs Hc. unfold cellno, side. destruct (decide _) as [Hg|Hg]; [|right; by split; [left|]].
  destruct Hc as [(k & -> & ->)|(k & -> & ->)]; [right; split; [right; by exists k|done]|left]. split; [done|]. exists k. split; [done|]. rewrite decide_False by lia. by rewrite Nat2Z.id.
Qed.

Lemma vertical_pair_ok i j F T I s : i < nx + (1 - dir) → j < ny + dir → vinv F T I s →
  let r := vertical_pair junk dir nx ny nz plist i j s in
  (∃ s' F1 I1, r = Some s' ∧ vinv (F ++ F1) (T ++ replicate (length F1) tag) (I ++ I1) s' ∧ right_plane nx ny nz plist zp dir i j (np + length I) F1 I1) ∨
  (r = None ∧ ∃ I1, crossings_of nx ny nz plist zp dir i j I1 ∧ cap < 4 * (length I + length I1)).
Proof using Hlen Hok Hzp Hdir Hnx Hny.
  intros Hi Hj Hs r. unfold r, vertical_pair. destruct s as [g work]. destruct Hs as [V1 [R V2] V3 V4 V5 [rr V6] V7 V8 V9]. cbn [fst snd] in *. subst work.
  destruct (checkmemory_ok junk nz g F V1) as (g1 & E1 & Hh1 & [Hr1 (p & Hp & Hr2)] & NN1 & NP1 & (rt & _ & HT1)). destruct (checkmemory_its junk nz g g1 F V1 E1 V8) as (L1 & L2 & (ri & HI1)). rewrite E1. cbn [mbind option_bind].
  destruct (positions i j Hdir Hi Hj Hnx Hny) as (q0 & q1 & q2 & q3 & -> & Eq).
  assert (Hpos : ∃ p0 p1 p2 p3, (if decide (dir = 1) then (q2, q0, q3, q1) else (q0, q1, q2, q3)) = (p0, p1, p2, p3) ∧
    (∀ k, k < n → plist !! (p0 + k) = Some (A1 (meeting nx ny nz plist dir i j) k)) ∧ (∀ k, k < n → plist !! (p1 + k) = Some (A2 (meeting nx ny nz plist dir i j) k)) ∧
    (∀ k, k < n → plist !! (p2 + k) = Some (B1 (meeting nx ny nz plist dir i j) k)) ∧ (∀ k, k < n → plist !! (p3 + k) = Some (B2 (meeting nx ny nz plist dir i j) k))).
  { rewrite Eq. clear Eq E1 Hr1 Hr2 Hok. unfold meeting. destruct (decide (dir = 0)) as [->|]; eexists _, _, _, _; (split; [done|]); cbn [A1 A2 B1 B2]; split_and!; intros k Hk; apply lev_at; try done; lia. }
  clear Eq. destruct Hpos as (p0 & p1 & p2 & p3 & -> & HA1 & HA2 & HB1 & HB2). destruct (meeting_ok i j Hi Hj) as [HcA HcB].
  rewrite NN1, NP1, V4, V5. replace (np + length I - np) with (length I) by lia.
  pose proof (ho_ptr _ _ Hh1 (length F) ltac:(done)) as Hpl. rewrite firstn_all in Hpl. rewrite (ho_nf _ _ Hh1), Hpl in Hp. injection Hp as <-. rewrite (ho_nf _ _ Hh1) in Hr1.
  assert (Hoff : 4 * length I ≤ length (g_its g1)) by (rewrite HI1, V6, !app_length, quads_length; lia).
  pose proof (find_ok (zp (pillar1 nx dir i j)) (zp (pillar2 nx dir i j)) (Hzp _) (Hzp _) n plist p0 p1 p2 p3 (meeting nx ny nz plist dir i j) HA1 HA2 HB1 HB2 HcA HcB g1 F (length I)) as Hfind.
  assert (Hmod : n mod 2 = 0) by (replace n with ((nz + 1) * 2) by lia; by rewrite Nat.mod_mul).
  specialize (Hfind Hmod Hr1 Hr2 ltac:(lia) Hh1 Hoff). cbv zeta in Hfind. rewrite NN1, V4 in Hfind.
  destruct Hfind as [(g2 & K & F1 & I1 & -> & Hh2 & HC & LF & NN2 & IT2 & FIT & M2 & N2 & TG2 & NP2)|[-> Hov]]; cbn [mbind option_bind].
  2:{ right. split; [done|]. destruct Hov as (I1 & ND & Hs1 & Hb). exists I1. split; [|lia]. by split. }
  left. destruct HC as [C1 C2 C3 C4 C5].
  assert (Hrange : ∀ x, x ∈ F1 → (fc_a x = -1 ∨ 0 ≤ fc_a x < Z.of_nat nz)%Z ∧ (fc_b x = -1 ∨ 0 ≤ fc_b x < Z.of_nat nz)%Z).
  { intros x [k Hx]%elem_of_list_lookup. destruct (Forall2_lookup_r _ _ _ _ _ C3 Hx) as ([a b] & Hk & Ha & Hb & _). apply elem_of_list_lookup_2 in Hk. apply C1 in Hk as (? & ? & _).
    split; [destruct Ha as [(k' & -> & ->)|(k' & -> & ->)]|destruct Hb as [(k' & -> & ->)|(k' & -> & ->)]]; [by left|right; lia|by left|right; lia]. }
  rewrite (ho_nf _ _ Hh1), (ho_nf _ _ Hh2), app_length. replace (length F + length F1 - length F) with (length F1) by lia.
  destruct (both_index_ok nx ny nz (Z.of_nat i - 1 + Z.of_nat dir) (Z.of_nat j - Z.of_nat dir) (Z.of_nat i) (Z.of_nat j) g2 F F1 Hh2 Hrange) as (n1 & n2 & -> & Hn2 & Hh3). cbn [mbind option_bind]. rewrite Hn2. cbn [mbind option_bind].
  set (F1' := _ <$> F1) in *. assert (LF' : length F1' = length F1) by apply fmap_length.
  destruct (tags_ok (set_nbr g2 n2) _ T (length F1) tag Hh3) as (g4 & E4 & Hh4 & [R4 HT4] & M4 & N4 & IT4 & NN4 & NP4).
  { cbn [g_tag set_nbr]. rewrite TG2, HT1, V2, <- app_assoc. by eexists. }
  { cbn [g_m set_nbr]. rewrite M2, V3. lia. }
  rewrite V3 in E4. rewrite E4. cbn [mbind option_bind].
  eexists _, F1', I1. split; [done|]. cbn [g_m g_n g_its g_nn g_np set_nbr] in M4, N4, IT4, NN4, NP4.
  assert (LI : length (g_its g2) = length (g_its g1)) by (rewrite IT2, !app_length, take_length, drop_length, quads_length; lia).
  split.
  - split; cbn [fst snd].
    + done.
    + exists R4. rewrite HT4, <- app_assoc, LF'. done.
    + rewrite !app_length, replicate_length, V3, LF'. done.
    + rewrite NN4, NN2, app_length. lia.
    + rewrite NP4, NP2, NP1. done.
    + rewrite IT4, IT2, HI1, V6. rewrite <- app_assoc, take_app_alt by (by rewrite quads_length). eexists. by rewrite quads_app, <- app_assoc.
    + rewrite IT4, LI. lia.
    + rewrite IT4, LI, M4, M2. lia.
    + done.
  - exists K. split; try done. unfold F1'. apply Forall2_fmap_r. apply Forall2_same_length_lookup. split; [by eapply Forall2_length|].
    intros k [a b] x Hk Hx. destruct (Forall2_lookup_lr _ _ _ _ _ _ C3 Hk Hx) as (Ha & Hb & Hv). apply elem_of_list_lookup_2 in Hk. apply C1 in Hk as (? & ? & _). cbn [fc_a fc_b fc_nodes set_ab]. split_and!; [by apply side_cellno|by apply side_cellno|done].
Qed.

(** ** The loops *)
Variables (F0 : list face) (T0 : list ftag) (I0 : list (Z * Z * Z * Z)).
Notation W := (nx + (1 - dir)).
Notation H := (ny + dir).
Definition planes (q : nat) (Fs : list (list face)) (Is : list (list (Z * Z * Z * Z))) : Prop := length Fs = q ∧ length Is = q ∧
  ∀ i j F I, i < W → j < H → Fs !! (i + W * j) = Some F → Is !! (i + W * j) = Some I → right_plane nx ny nz plist zp dir i j (np + length (I0 ++ concat (take (i + W * j) Is))) F I.
Definition pinv (q : nat) (s : pgrid * list Z) : Prop := ∃ Fs Is, planes q Fs Is ∧ vinv (F0 ++ concat Fs) (T0 ++ replicate (length (concat Fs)) tag) (I0 ++ concat Is) s.
Definition overflow : Prop := ∃ Is : list (list (Z * Z * Z * Z)), length Is ≤ W * H ∧
  (∀ i j I, i < W → j < H → Is !! (i + W * j) = Some I → crossings_of nx ny nz plist zp dir i j I) ∧ cap < 4 * length (I0 ++ concat Is).

Lemma pair_index i j i' j' : i < W → i' < W → i + W * j = i' + W * j' → i = i' ∧ j = j'.
Proof. clear. intros H1 H2 E. assert (j = j') by nia. subst. split; [lia|done]. Qed.
Lemma pair_step i j s : i < W → j < H → pinv (i + W * j) s →
  (∃ s', vertical_pair junk dir nx ny nz plist i j s = Some s' ∧ pinv (i + 1 + W * j) s') ∨ (vertical_pair junk dir nx ny nz plist i j s = None ∧ overflow).
Proof using Hlen Hok Hzp Hdir Hnx Hny.
  intros Hi Hj (Fs & Is & (L1 & L2 & HP) & Hs). destruct (vertical_pair_ok i j _ _ _ s Hi Hj Hs) as [(s' & F1 & I1 & E & Hs' & Hr)|[E (I1 & Hc & Hov)]].
  - left. exists s'. split; [done|]. exists (Fs ++ [F1]), (Is ++ [I1]). split.
    + split; [rewrite app_length, L1; cbn; lia|]. split; [rewrite app_length, L2; cbn; lia|]. intros i' j' F I Hi' Hj' HF HI.
      apply lookup_app_Some in HF as [HF|[HF1 HF2]].
      * assert (Hlt : i' + W * j' < i + W * j) by (rewrite <- L1; by eapply lookup_lt_Some). rewrite lookup_app_l in HI by (rewrite L2; done). rewrite take_app_le by (rewrite L2; lia). by apply HP.
      * apply list_lookup_singleton_Some in HF2 as [HF2 <-]. rewrite L1 in HF1, HF2. assert (Ei : i' + W * j' = i + W * j) by lia. rewrite Ei in *. rewrite lookup_app_r in HI by lia. rewrite L2, Nat.sub_diag in HI. injection HI as <-.
        destruct (pair_index _ _ _ _ Hi' Hi Ei) as [-> ->]. rewrite take_app_alt by done. done.
    + rewrite !concat_app. cbn [concat]. rewrite !app_nil_r, !app_length, replicate_add, !app_assoc. done.
  - right. split; [done|]. exists (Is ++ [I1]). split; [|split].
    + rewrite app_length, L2. cbn [length]. clear - Hi Hj. assert (i + 1 + W * j ≤ W * H) by nia. lia.
    + intros i' j' I Hi' Hj' HI. apply lookup_app_Some in HI as [HI|[HI1 HI2]].
      * assert (Hlt : i' + W * j' < length Is) by (by eapply lookup_lt_Some). destruct (lookup_lt_is_Some_2 Fs (i' + W * j')) as [F HF]; [lia|]. destruct (HP _ _ _ _ Hi' Hj' HF HI) as (K & [C1 C2 C3 C4 C5]). split; [done|]. intros ? ? ? ? Hin. by apply C4.
      * apply list_lookup_singleton_Some in HI2 as [HI2 <-]. rewrite L2 in HI1, HI2. assert (Ei : i' + W * j' = i + W * j) by lia. destruct (pair_index _ _ _ _ Hi' Hi Ei) as [-> ->]. done.
    + rewrite concat_app, app_assoc, app_length. cbn [concat]. rewrite app_nil_r. done.
Qed.

Lemma vertical_ok g : vinv F0 T0 I0 (g, replicate (2 * n) (-1)%Z) →
  let r := process_vertical_faces junk dir nx ny nz plist (replicate (2 * n) (-1)%Z) g in
  (∃ s' Fs Is, r = Some s' ∧ planes (W * H) Fs Is ∧ vinv (F0 ++ concat Fs) (T0 ++ replicate (length (concat Fs)) tag) (I0 ++ concat Is) s') ∨ (r = None ∧ overflow).
Proof using Hlen Hok Hzp Hdir Hnx Hny.
  intros Hg r. unfold r, process_vertical_faces.
  destruct (for_loop_or (λ j s, pinv (W * j) s) overflow (λ j, for_loop W 0 (λ i, vertical_pair junk dir nx ny nz plist i j)) H 0 (g, replicate (2 * n) (-1)%Z)) as [(s' & E & Fs & Is & HP & Hs)|HN].
  - exists [], []. split; [by rewrite Nat.mul_0_r|]. cbn [concat length replicate]. by rewrite !app_nil_r.
  - intros j s _ Hj Hs. cbn in Hj. destruct (for_loop_or (λ i s, pinv (i + W * j) s) overflow (λ i, vertical_pair junk dir nx ny nz plist i j) W 0 s) as [(s' & E & Hs')|HN]; [done| | |by right].
    + intros i t _ Hi Ht. apply pair_step; done.
    + left. exists s'. split; [done|]. cbn [Nat.add] in Hs'. replace (W * (j + 1)) with (W + W * j) by lia. done.
  - left. exists s', Fs, Is. rewrite Nat.add_0_l in HP. done.
  - by right.
Qed.
End proc.
