(** The loops of process_horizontal_faces and the renumbering. *)
From Verif Require Import Base LoopModel LoopProof UniqModel UniqSpec PrepModel HorizSpec HorizProof.
Unset Default Proof Using.

Lemma filter_concat_one {A} (P : A → Prop) {HD : ∀ x, Decision (P x)} (f : nat → list A) n q : q < n → (∀ q', q' < n → q' ≠ q → ∀ x, x ∈ f q' → ¬ P x) →
  filter P (concat (f <$> seq 0 n)) = filter P (f q).
Proof.
  intros Hq H. assert (G : ∀ a m, (∀ q', a ≤ q' → q' < a + m → ∀ x, x ∈ f q' → ¬ P x) → filter P (concat (f <$> seq a m)) = []).
  { intros a m Hm. apply filter_none. intros x Hx. apply elem_of_list_In, in_concat in Hx as (l & H1 & H2). apply elem_of_list_In, elem_of_list_fmap in H1 as (q' & -> & Hq'). apply elem_of_seq in Hq'. apply (Hm q'); [lia|lia|]. by apply elem_of_list_In. }
  replace n with (q + (1 + (n - q - 1))) by lia. rewrite !seq_app, !fmap_app, !concat_app, !filter_app. rewrite G by (intros; apply (H q'); [lia|lia|done]). rewrite (G (0 + q + 1)) by (intros; apply (H q'); [lia|lia|done]). cbn [seq fmap list_fmap concat Nat.add]. by rewrite !app_nil_r.
Qed.

Section loop.
Variables (nx ny nz : nat) (plist : list Z) (junk : Z).
Hypothesis Hpad : padded nx ny nz plist.
Notation cellidx i j k := (i + nx * (j + ny * k)).

Definition pos4 (i j : nat) : list nat := vector_positions (2 * nx) (2 * ny) (2 + 2 * nz) (2 * i + 1) (2 * j + 1).
Definition col_at (i j : nat) : nat := (2 * nz + 2) * (i + 2 * nx * j).
Lemma pos4_ok i j : i < nx → j < ny → pos4 i j = [col_at (2 * i) (2 * j); col_at (2 * i) (2 * j + 1); col_at (2 * i + 1) (2 * j); col_at (2 * i + 1) (2 * j + 1)].
Proof.
  intros Hi Hj. unfold pos4, vector_positions, col_at.
  replace (Nat.max 1 (2 * i + 1) - 1) with (2 * i) by lia. replace (Nat.max 1 (2 * j + 1) - 1) with (2 * j) by lia.
  replace (Nat.min (2 * nx) (2 * i + 1 + 1) - 1) with (2 * i + 1) by lia. replace (Nat.min (2 * ny) (2 * j + 1 + 1) - 1) with (2 * j + 1) by lia. rewrite (Nat.add_comm 2 (2 * nz)). done.
Qed.
Definition lv (i j k : nat) : list Z := default [] (level plist (pos4 i j) k).
Lemma col_in i j k : i < 2 * nx → j < 2 * ny → k < 2 * nz + 2 → col_at i j + k < length plist.
Proof. intros Hi Hj Hk. rewrite (pa_len _ _ _ _ Hpad). unfold col_at. assert (i + 2 * nx * j + 1 ≤ 2 * nx * (2 * ny)) by nia. nia. Qed.
Lemma level_ok i j k : i < nx → j < ny → k < 2 * nz + 2 → level plist (pos4 i j) k = Some (lv i j k) ∧ length (lv i j k) = 4 ∧
  ∃ v0 v1 v2 v3, plist !! (col_at (2 * i) (2 * j) + k) = Some v0 ∧ plist !! (col_at (2 * i + 1) (2 * j) + k) = Some v1 ∧ plist !! (col_at (2 * i + 1) (2 * j + 1) + k) = Some v2 ∧ plist !! (col_at (2 * i) (2 * j + 1) + k) = Some v3 ∧ lv i j k = [v0; v1; v2; v3].
Proof.
  intros Hi Hj Hk. unfold lv. rewrite pos4_ok by done. unfold level.
  destruct (lookup_lt_is_Some_2 plist (col_at (2 * i) (2 * j) + k)) as [v0 E0]; [apply col_in; lia|]. destruct (lookup_lt_is_Some_2 plist (col_at (2 * i + 1) (2 * j) + k)) as [v1 E1]; [apply col_in; lia|].
  destruct (lookup_lt_is_Some_2 plist (col_at (2 * i + 1) (2 * j + 1) + k)) as [v2 E2]; [apply col_in; lia|]. destruct (lookup_lt_is_Some_2 plist (col_at (2 * i) (2 * j + 1) + k)) as [v3 E3]; [apply col_in; lia|].
  rewrite E0, E1, E2, E3. cbn [mbind option_bind]. split; [done|]. split; [done|]. by exists v0, v1, v2, v3.
Qed.
Lemma quad_lv i j k q : i < nx → j < ny → k < 2 * nz → quad nx nz plist i j k q ↔ q = lv i j (k + 1).
Proof.
  intros Hi Hj Hk. destruct (level_ok i j (k + 1) Hi Hj ltac:(lia)) as (_ & _ & v0 & v1 & v2 & v3 & E0 & E1 & E2 & E3 & ->). unfold quad, number. fold (col_at (2 * i) (2 * j)) (col_at (2 * i + 1) (2 * j)) (col_at (2 * i + 1) (2 * j + 1)) (col_at (2 * i) (2 * j + 1)).
  rewrite <- !Nat.add_assoc, !(Nat.add_comm 1 k). split.
  - intros (w0 & w1 & w2 & w3 & F0 & F1 & F2 & F3 & ->). congruence.
  - intros ->. by exists v0, v1, v2, v3.
Qed.
Lemma lv_end i j : i < nx → j < ny → lv i j (2 * nz) ≠ lv i j (2 * nz + 1).
Proof.
  intros Hi Hj. destruct (level_ok i j (2 * nz) Hi Hj ltac:(lia)) as (_ & _ & v0 & v1 & v2 & v3 & E0 & _ & _ & _ & ->). destruct (level_ok i j (2 * nz + 1) Hi Hj ltac:(lia)) as (_ & _ & w0 & w1 & w2 & w3 & F0 & _ & _ & _ & ->).
  intros E. injection E as -> _ _ _. pose proof (pa_below _ _ _ _ Hpad (2 * i) (2 * j) ltac:(lia) ltac:(lia)) as G1. pose proof (pa_last _ _ _ _ Hpad (2 * i) (2 * j) ltac:(lia) ltac:(lia)) as G2. fold (col_at (2 * i) (2 * j)) in G1, G2.
  apply G2. rewrite E0, <- F0, <- G1. f_equal. lia.
Qed.
Lemma alive_live i j k : i < nx → j < ny → k < nz → alive (lv i j) k ↔ live nx ny nz plist i j k.
Proof.
  intros Hi Hj Hk. unfold alive, live. replace (2 * k + 2) with (2 * k + 1 + 1) by lia. split.
  - intros H. split; [done|]. exists (lv i j (2 * k + 1)), (lv i j (2 * k + 1 + 1)). split; [by apply quad_lv; [..|lia|]|]. split; [by apply quad_lv; [..|lia|]|done].
  - intros (_ & q & q' & H1 & H2 & Hne). apply quad_lv in H1 as ->; [|lia..]. by apply quad_lv in H2 as ->; [|lia..].
Qed.
Global Instance alive_dec i j k : Decision (alive (lv i j) k). Proof. unfold alive. apply _. Defined.

Definition hc (i j : nat) : list face := hcol nz (lv i j) (λ k, cid nx ny i j k).
Definition cells_in (i j n : nat) : list nat := (λ k, cellidx i j k) <$> filter (alive (lv i j)) (seq 0 n).

Record sinv (g0 : pgrid) (F : list face) (T : list ftag) (D : list nat) (cell0 : list Z) (i j k : nat) (s : hstate) : Prop := {
  si_faces : ∃ G, hc i j = G ++ hgo (lv i j) (λ k, cid nx ny i j k) (2 * nz + 1 - k) k (h_prev s) ∧ holds (h_g s) (F ++ G) ∧ length G + 1 ≤ k ∧
    length (concat (fc_nodes <$> (F ++ G))) = length (concat (fc_nodes <$> F)) + 4 * length G ∧ h_f s = length (concat (fc_nodes <$> (F ++ G))) ∧ h_n s = 2 * length (F ++ G) ∧
    ∃ R, g_tag (h_g s) = T ++ replicate (length G) TOP ++ R;
  si_m : g_m (h_g s) = g_m g0; si_n : g_n (h_g s) = g_n g0; si_nn : g_nn (h_g s) = g_nn g0; si_np : g_np (h_g s) = g_np g0; si_its : g_its (h_g s) = g_its g0;
  si_no : h_cellno s = length (D ++ cells_in i j (k / 2));
  si_len : length (h_cell s) = nx * ny * nz;
  si_done : ∀ v c, (D ++ cells_in i j (k / 2)) !! v = Some c → h_cell s !! c = Some (Z.of_nat v);
  si_dead : ∀ k', k' < k / 2 → ¬ alive (lv i j) k' → h_cell s !! cellidx i j k' = Some (-1)%Z;
  si_else : ∀ c, (∀ k', k' < nz → c ≠ cellidx i j k') → h_cell s !! c = cell0 !! c }.

Lemma half_odd k : k mod 2 = 1 → (k + 1) / 2 = k / 2 + 1 ∧ (k - 1) / 2 = k / 2 ∧ k = 2 * (k / 2) + 1.
Proof.
  intros Ho. pose proof (Nat.div_mod k 2 ltac:(lia)) as Hk. rewrite Ho in Hk. split; [|split; [|done]].
  - replace (k + 1) with ((k / 2 + 1) * 2) by lia. by rewrite Nat.div_mul.
  - replace (k - 1) with (k / 2 * 2) by lia. by rewrite Nat.div_mul.
Qed.
Lemma half_even k : k mod 2 ≠ 1 → (k + 1) / 2 = k / 2.
Proof.
  intros Ho. pose proof (Nat.div_mod k 2 ltac:(lia)) as Hk. pose proof (Nat.mod_upper_bound k 2 ltac:(lia)). assert (k mod 2 = 0) as E by lia. rewrite E in Hk.
  replace (k + 1) with (1 + k / 2 * 2) by lia. by rewrite Nat.div_add.
Qed.
Lemma cells_in_S i j n : cells_in i j (S n) = cells_in i j n ++ (if decide (alive (lv i j) n) then [cellidx i j n] else []).
Proof. unfold cells_in. rewrite seq_S, filter_app, fmap_app. f_equal. cbn [Nat.add]. rewrite filter_cons. destruct (decide _); done. Qed.
Lemma cells_in_elem i j n c : c ∈ cells_in i j n → ∃ k, k < n ∧ alive (lv i j) k ∧ c = cellidx i j k.
Proof. unfold cells_in. intros (k & -> & H)%elem_of_list_fmap. apply elem_of_list_filter in H as [? H%elem_of_seq]. exists k. split; [lia|done]. Qed.

Lemma step_ok g0 F T D cell0 i j k s : i < nx → j < ny → 1 ≤ k → k < 2 * nz + 1 → length T = length F →
  length F + 2 * nz ≤ g_m g0 → length (concat (fc_nodes <$> F)) + 8 * nz ≤ g_n g0 → (∀ c, c ∈ D → ∀ k', c ≠ cellidx i j k') →
  sinv g0 F T D cell0 i j k s → ∃ s', horizontal_step nx ny nz plist (pos4 i j) i j k s = Some s' ∧ sinv g0 F T D cell0 i j (k + 1) s'.
Proof.
  intros Hi Hj Hk1 Hk HT Hm Hn HD [(G & HG & Hh & HlG & HcG & Hf & Hnn & R & HR) E1 E2 E3 E4 E5 Hno Hlen Hdone Hdead Helse].
  unfold horizontal_step. destruct (level_ok i j k Hi Hj ltac:(lia)) as (Ek & Hl4 & _). destruct (level_ok i j (k + 1) Hi Hj ltac:(lia)) as (Ek' & _ & _). rewrite Ek, Ek'. cbn [mbind option_bind].
  replace (2 * nz + 1 - k) with (S (2 * nz + 1 - (k + 1))) in HG by lia. cbn [hgo] in HG.
  assert (Hidx : ∀ c, c < nz → linearindex nx ny nz i j c = Some (cellidx i j c)) by (intros c Hc; unfold linearindex; by rewrite decide_True).
  assert (Hin : ∀ c, c < nz → cellidx i j c < length (h_cell s)). { intros c Hc. rewrite Hlen. apply (num_lt nx ny nz i j c); done. }
  assert (Hself : ∀ a b, a ≠ b → cellidx i j a ≠ cellidx i j b). { intros a b Hab E. apply (num_inj nx ny i j a i j b) in E as (_ & _ & ?); done. }
  destruct (decide (lv i j k = lv i j (k + 1))) as [E|E].
  - destruct (decide (k mod 2 = 1)) as [Ho|Ho].
    + destruct (half_odd k Ho) as (Hh1 & Hh2 & Hh3). rewrite Hh2. assert (k / 2 < nz) by lia. rewrite Hidx by done. cbn [mbind option_bind]. rewrite upd_Some by (by apply Hin). cbn [mbind option_bind]. eexists. split; [done|].
      assert (Hna : ¬ alive (lv i j) (k / 2)). { intros Ha. apply Ha. rewrite <- Hh3. by replace (2 * (k / 2) + 2) with (k + 1) by lia. }
      assert (Ec : cells_in i j ((k + 1) / 2) = cells_in i j (k / 2)) by (rewrite Hh1, Nat.add_1_r, cells_in_S, decide_False by done; apply app_nil_r).
      split; cbn [h_g h_f h_n h_prev h_cell h_cellno]; try done.
      * exists G. split_and!; try done; try lia. by exists R.
      * by rewrite Ec.
      * by rewrite insert_length.
      * rewrite Ec. intros v c Hv. rewrite list_lookup_insert_ne; [by apply Hdone|]. apply elem_of_list_lookup_2, elem_of_app in Hv as [Hc|Hc]; [apply not_eq_sym; by apply (HD c Hc)|]. apply cells_in_elem in Hc as (k' & Hk' & _ & ->). apply Hself. lia.
      * intros k' Hk' Hna'. destruct (decide (k' = k / 2)) as [->|]; [by apply list_lookup_insert, Hin|]. rewrite list_lookup_insert_ne by (apply Hself; congruence). apply Hdead; [lia|done].
      * intros c Hc. rewrite list_lookup_insert_ne by (apply not_eq_sym; by apply Hc). by apply Helse.
    + eexists. split; [done|]. split; try done; try (rewrite (half_even k Ho); done). exists G. split_and!; try done; try lia. by exists R.
  - destruct (decide (k mod 2 = 1)) as [Ho|Ho].
    + destruct (half_odd k Ho) as (Hh1 & Hh2 & Hh3). rewrite Hh2. assert (k / 2 < nz) by lia. rewrite Hidx by done. cbn [mbind option_bind].
      destruct (put_tag_ok (h_g s) (F ++ G) (g_nf (h_g s)) TOP Hh) as (g1 & Et & Hh1' & Em1 & En1 & Etag & Eits1 & Enn1 & Enp1). { rewrite (ho_nf _ _ Hh), app_length. lia. }
      rewrite Et. cbn [mbind option_bind]. rewrite Hf, Hnn.
      destruct (put_face_ok g1 (F ++ G) (h_prev s) (Z.of_nat (cellidx i j (k / 2))) (lv i j k) Hh1') as (g2 & Ef & Hh2' & Em2 & En2 & Etag2 & Eits2 & Enn2 & Enp2). { rewrite app_length. lia. } { lia. }
      rewrite Ef. cbn [mbind option_bind]. rewrite upd_Some by (by apply Hin). cbn [mbind option_bind]. eexists. split; [done|].
      assert (Ha : alive (lv i j) (k / 2)). { unfold alive. rewrite <- Hh3. by replace (2 * (k / 2) + 2) with (k + 1) by lia. }
      assert (Ec : cells_in i j ((k + 1) / 2) = cells_in i j (k / 2) ++ [cellidx i j (k / 2)]) by (rewrite Hh1, Nat.add_1_r, cells_in_S, decide_True by done; done).
      split; cbn [h_g h_f h_n h_prev h_cell h_cellno]; try congruence.
      * exists (G ++ [Face (h_prev s) (Z.of_nat (cellidx i j (k / 2))) (lv i j k)]). rewrite Hh2 in HG. split; [rewrite <- app_assoc; exact HG|]. split; [by rewrite app_assoc|]. split; [rewrite app_length; cbn; lia|].
        assert (Hcc : length (concat (fc_nodes <$> (F ++ G ++ [Face (h_prev s) (Z.of_nat (cellidx i j (k / 2))) (lv i j k)]))) = length (concat (fc_nodes <$> (F ++ G))) + 4). { rewrite app_assoc, fmap_app, concat_app, app_length. cbn [fmap list_fmap concat fc_nodes]. rewrite app_nil_r. lia. }
        split; [rewrite Hcc, HcG, app_length; cbn; lia|]. split; [rewrite Hcc; lia|]. split; [rewrite !app_length; cbn; lia|].
        rewrite Etag2, Etag, HR, (ho_nf _ _ Hh). rewrite app_assoc. assert (Hlr : length (T ++ replicate (length G) TOP) = length (F ++ G)) by (rewrite !app_length, replicate_length; lia).
        assert (R ≠ []). { intros ->. pose proof (ho_ltag _ _ Hh) as Hlt. rewrite HR, app_nil_r, Hlr, app_length in Hlt. lia. } destruct R as [|x R]; [done|]. exists R.
        rewrite insert_app_r_alt by lia. rewrite Hlr, Nat.sub_diag. change (<[0:=TOP]> (x :: R)) with (TOP :: R). rewrite !app_length. cbn [length]. rewrite replicate_add. cbn [replicate]. rewrite <- !app_assoc. done.
      * by rewrite Ec, app_assoc, app_length, Hno.
      * by rewrite insert_length.
      * rewrite Ec, app_assoc. intros v c Hv. apply lookup_app_Some in Hv as [Hv|[Hv1 Hv]].
        -- rewrite list_lookup_insert_ne; [by apply Hdone|]. apply elem_of_list_lookup_2, elem_of_app in Hv as [Hc|Hc]; [apply not_eq_sym; by apply (HD c Hc)|]. apply cells_in_elem in Hc as (k' & Hk' & _ & ->). apply Hself. lia.
        -- apply list_lookup_singleton_Some in Hv as [Hv <-]. rewrite list_lookup_insert by (by apply Hin). do 2 f_equal. lia.
      * intros k' Hk' Hna'. destruct (decide (k' = k / 2)) as [->|]; [done|]. rewrite list_lookup_insert_ne by (apply Hself; congruence). apply Hdead; [lia|done].
      * intros c Hc. rewrite list_lookup_insert_ne by (apply not_eq_sym; by apply Hc). by apply Helse.
    + destruct (decide (h_prev s = -1)%Z) as [Ep|Ep].
      { eexists. split; [done|]. split; try done; try (rewrite (half_even k Ho); done). exists G. split_and!; try done; try lia. by exists R. }
      destruct (put_tag_ok (h_g s) (F ++ G) (g_nf (h_g s)) TOP Hh) as (g1 & Et & Hh1' & Em1 & En1 & Etag & Eits1 & Enn1 & Enp1). { rewrite (ho_nf _ _ Hh), app_length. lia. }
      rewrite Et. cbn [mbind option_bind]. rewrite Hf, Hnn.
      destruct (put_face_ok g1 (F ++ G) (h_prev s) (-1) (lv i j k) Hh1') as (g2 & Ef & Hh2' & Em2 & En2 & Etag2 & Eits2 & Enn2 & Enp2). { rewrite app_length. lia. } { lia. }
      rewrite Ef. cbn [mbind option_bind]. eexists. split; [done|].
      split; cbn [h_g h_f h_n h_prev h_cell h_cellno]; try congruence; try (rewrite (half_even k Ho); done); try done.
      exists (G ++ [Face (h_prev s) (-1) (lv i j k)]). split; [rewrite <- app_assoc; exact HG|]. split; [by rewrite app_assoc|]. split; [rewrite app_length; cbn; lia|].
      assert (Hcc : length (concat (fc_nodes <$> (F ++ G ++ [Face (h_prev s) (-1) (lv i j k)]))) = length (concat (fc_nodes <$> (F ++ G))) + 4). { rewrite app_assoc, fmap_app, concat_app, app_length. cbn [fmap list_fmap concat fc_nodes]. rewrite app_nil_r. lia. }
      split; [rewrite Hcc, HcG, app_length; cbn; lia|]. split; [rewrite Hcc; lia|]. split; [rewrite !app_length; cbn; lia|].
      rewrite Etag2, Etag, HR, (ho_nf _ _ Hh). rewrite app_assoc. assert (Hlr : length (T ++ replicate (length G) TOP) = length (F ++ G)) by (rewrite !app_length, replicate_length; lia).
      assert (R ≠ []). { intros ->. pose proof (ho_ltag _ _ Hh) as Hlt. rewrite HR, app_nil_r, Hlr, app_length in Hlt. lia. } destruct R as [|x R]; [done|]. exists R.
      rewrite insert_app_r_alt by lia. rewrite Hlr, Nat.sub_diag. change (<[0:=TOP]> (x :: R)) with (TOP :: R). rewrite !app_length. cbn [length]. rewrite replicate_add. cbn [replicate]. rewrite <- !app_assoc. done.
Qed.

Lemma column_ok g F T D cell i j : i < nx → j < ny → holds g F → (∃ R, g_tag g = T ++ R) → length T = length F → length cell = nx * ny * nz →
  (∀ v c, D !! v = Some c → cell !! c = Some (Z.of_nat v)) → (∀ c, c ∈ D → ∀ k', c ≠ cellidx i j k') →
  ∃ g' cell', horizontal_column junk nx ny nz plist i j (g, cell, length D) = Some (g', cell', length (D ++ cells_in i j nz)) ∧ holds g' (F ++ hc i j) ∧
    (∃ R, g_tag g' = T ++ replicate (length (hc i j)) TOP ++ R) ∧ g_nn g' = g_nn g ∧ g_np g' = g_np g ∧ length cell' = nx * ny * nz ∧
    (∀ v c, (D ++ cells_in i j nz) !! v = Some c → cell' !! c = Some (Z.of_nat v)) ∧
    (∀ k', k' < nz → ¬ alive (lv i j) k' → cell' !! cellidx i j k' = Some (-1)%Z) ∧
    (∀ c, (∀ k', k' < nz → c ≠ cellidx i j k') → cell' !! c = cell !! c).
Proof.
  intros Hi Hj Hh [R HR] HT Hcl HDl HD. unfold horizontal_column. destruct (checkmemory_ok junk nz g F Hh) as (g1 & -> & Hh1 & [Hr1 (p & Hp & Hr2)] & Enn & Enp & R' & _ & Etag). cbn [mbind option_bind]. rewrite Hp. cbn [mbind option_bind].
  pose proof (ho_ptr _ _ Hh1 (length F) ltac:(done)) as Hp'. rewrite firstn_all in Hp'. rewrite (ho_nf _ _ Hh1) in Hp, Hr1. rewrite Hp' in Hp. injection Hp as <-. fold (pos4 i j).
  destruct (for_loop_inv (λ k s, sinv g1 F T D cell i j k s) (2 * nz) 1 (horizontal_step nx ny nz plist (pos4 i j) i j) (HState g1 (length (concat (fc_nodes <$> F))) (2 * g_nf g1) (-1) cell (length D))) as (s' & E & Hs').
  - split; cbn [h_g h_f h_n h_prev h_cell h_cellno]; try done.
    + exists []. replace (2 * nz + 1 - 1) with (2 * nz) by lia. rewrite !(app_nil_r F). split; [done|]. split; [done|]. split; [done|]. split; [cbn [length]; lia|]. split; [done|]. split; [by rewrite (ho_nf _ _ Hh1)|]. exists (R ++ R'). cbn [length replicate app]. by rewrite Etag, HR, app_assoc.
    + change (1 / 2) with 0. cbn. by rewrite app_nil_r.
    + change (1 / 2) with 0. cbn. rewrite app_nil_r. done.
    + change (1 / 2) with 0. lia.
  - intros k s Hk Hs. apply step_ok; try done; try lia; nia.
  - rewrite E. cbn [mbind option_bind]. destruct Hs' as [(G & HG & Hh' & _ & _ & _ & _ & R2 & HR2) E1 E2 E3 E4 E5 Hno Hlen Hdone Hdead Helse].
    assert (Eh : (1 + 2 * nz) / 2 = nz) by (rewrite (Nat.mul_comm 2), Nat.div_add by lia; done). rewrite Eh in *.
    replace (2 * nz + 1 - (1 + 2 * nz)) with 0 in HG by lia. cbn [hgo] in HG. rewrite app_nil_r in HG. subst G. eexists _, _. rewrite Hno. split; [done|]. split; [done|]. split; [by exists R2|]. split; [congruence|]. split; [congruence|]. done.
Qed.

Definition hcq (q : nat) : list face := hc (q mod nx) (q / nx).
Definition cellsq (q : nat) : list nat := cells_in (q mod nx) (q / nx) nz.
Definition Fq (q : nat) : list face := concat (hcq <$> seq 0 q).
Definition Dq (q : nat) : list nat := concat (cellsq <$> seq 0 q).
Lemma q_split i j : i < nx → (i + nx * j) mod nx = i ∧ (i + nx * j) / nx = j.
Proof. intros Hi. rewrite (Nat.mul_comm nx). rewrite Nat.mod_add, Nat.div_add by lia. by rewrite Nat.mod_small, Nat.div_small by done. Qed.
Lemma Fq_S q : Fq (q + 1) = Fq q ++ hcq q.
Proof. unfold Fq. rewrite Nat.add_1_r, seq_S, fmap_app, concat_app. cbn. by rewrite app_nil_r. Qed.
Lemma Dq_S q : Dq (q + 1) = Dq q ++ cellsq q.
Proof. unfold Dq. rewrite Nat.add_1_r, seq_S, fmap_app, concat_app. cbn. by rewrite app_nil_r. Qed.
Lemma Dq_in q c : q ≤ nx * ny → c ∈ Dq q ↔ ∃ i j k, i < nx ∧ i + nx * j < q ∧ k < nz ∧ alive (lv i j) k ∧ c = cellidx i j k.
Proof.
  intros Hq. unfold Dq. split.
  - intros Hc. apply elem_of_list_In, in_concat in Hc as (l & H1 & H2). apply elem_of_list_In, elem_of_list_fmap in H1 as (q' & -> & Hq'). apply elem_of_seq in Hq'. apply elem_of_list_In, cells_in_elem in H2 as (k & Hk & Ha & ->).
    assert (nx ≠ 0) by (intros ->; cbn in Hq; lia). exists (q' mod nx), (q' / nx), k. split; [by apply Nat.mod_upper_bound|]. pose proof (Nat.div_mod q' nx ltac:(done)). split; [lia|done].
  - intros (i & j & k & Hi & Hlt & Hk & Ha & ->). apply elem_of_list_In, in_concat. exists (cellsq (i + nx * j)). split.
    + apply elem_of_list_In, elem_of_list_fmap. exists (i + nx * j). split; [done|]. apply elem_of_seq. lia.
    + unfold cellsq. destruct (q_split i j Hi) as [-> ->]. apply elem_of_list_In. unfold cells_in. apply elem_of_list_fmap. exists k. split; [done|]. apply elem_of_list_filter. split; [done|]. apply elem_of_seq. lia.
Qed.

Record winv (g0 : pgrid) (F0 : list face) (T0 : list ftag) (q : nat) (s : pgrid * list Z * nat) : Prop := {
  wi_faces : holds s.1.1 (F0 ++ Fq q);
  wi_tags : ∃ R, g_tag s.1.1 = T0 ++ replicate (length (Fq q)) TOP ++ R;
  wi_nn : g_nn s.1.1 = g_nn g0; wi_np : g_np s.1.1 = g_np g0;
  wi_no : s.2 = length (Dq q);
  wi_len : length s.1.2 = nx * ny * nz;
  wi_done : ∀ v c, Dq q !! v = Some c → s.1.2 !! c = Some (Z.of_nat v);
  wi_dead : ∀ i j k, i < nx → i + nx * j < q → k < nz → ¬ alive (lv i j) k → s.1.2 !! cellidx i j k = Some (-1)%Z }.

Lemma whole_step g0 F0 T0 i j s : i < nx → j < ny → length T0 = length F0 → winv g0 F0 T0 (i + nx * j) s → ∃ s', horizontal_column junk nx ny nz plist i j s = Some s' ∧ winv g0 F0 T0 (i + nx * j + 1) s'.
Proof.
  intros Hi Hj HT0 [Hh [R HR] Hnn Hnp Hno Hlen Hdone Hdead]. destruct s as [[g cell] n]. cbn [fst snd] in *. subst n. destruct (q_split i j Hi) as [Eq1 Eq2].
  assert (Hqb : i + nx * j + 1 ≤ nx * ny) by nia.
  destruct (column_ok g (F0 ++ Fq (i + nx * j)) (T0 ++ replicate (length (Fq (i + nx * j))) TOP) (Dq (i + nx * j)) cell i j Hi Hj Hh) as (g' & cell' & E & Hh' & [R' HR'] & Hnn' & Hnp' & Hlen' & Hdone' & Hdead' & Helse).
  - exists R. by rewrite HR, <- app_assoc.
  - rewrite !app_length, replicate_length. lia.
  - done.
  - done.
  - intros c Hc k' E. apply Dq_in in Hc as (i' & j' & k & Hi' & Hlt & Hk & _ & ->); [|lia]. assert (j' < ny) by nia. apply (num_inj nx ny i' j' k i j k') in E as (-> & -> & _); [lia|done..].
  - exists (g', cell', length (Dq (i + nx * j) ++ cells_in i j nz)). split; [done|]. assert (E1 : hcq (i + nx * j) = hc i j) by (unfold hcq; by rewrite Eq1, Eq2). assert (E2 : cellsq (i + nx * j) = cells_in i j nz) by (unfold cellsq; by rewrite Eq1, Eq2).
    split; cbn [fst snd].
    + by rewrite Fq_S, E1, app_assoc.
    + exists R'. rewrite HR', Fq_S, E1, app_length, replicate_add. by rewrite <- !app_assoc.
    + congruence.
    + congruence.
    + by rewrite Dq_S, E2.
    + done.
    + by rewrite Dq_S, E2.
    + intros i' j' k Hi' Hlt Hk Hna. destruct (decide (i' + nx * j' = i + nx * j)) as [Ee|Hne].
      * apply pair_inj in Ee as [-> ->]; [|done..]. by apply Hdead'.
      * assert (j' < ny) by nia. rewrite Helse; [apply Hdead; [done|lia|done|done]|]. intros k' _ Ec. apply (num_inj nx ny i' j' k i j k') in Ec as (-> & -> & _); done.
Qed.
Lemma whole_ok g F T cell : holds g F → (∃ R, g_tag g = T ++ R) → length T = length F → length cell = nx * ny * nz →
  ∃ g' cell', process_horizontal_faces junk nx ny nz plist g cell = Some (g', cell', length (Dq (nx * ny))) ∧ winv g F T (nx * ny) (g', cell', length (Dq (nx * ny))).
Proof.
  intros Hh HR HT Hlen. unfold process_horizontal_faces.
  destruct (for_loop_inv (λ j s, winv g F T (nx * j) s) ny 0 (λ j, for_loop nx 0 (λ i, horizontal_column junk nx ny nz plist i j)) (g, cell, 0)) as (s' & E & Hs').
  - rewrite Nat.mul_0_r. split; cbn; try done; [by rewrite app_nil_r|]. intros. lia.
  - intros j s Hj Hs. destruct (for_loop_inv (λ i s, winv g F T (i + nx * j) s) nx 0 (λ i, horizontal_column junk nx ny nz plist i j) s) as (s1 & E1 & Hs1).
    + done.
    + intros i s1 Hi Hs1. destruct (whole_step g F T i j s1) as (s2 & E2 & Hs2); [lia|lia|done|done|]. exists s2. split; [done|]. by replace (i + 1 + nx * j) with (i + nx * j + 1) by lia.
    + exists s1. split; [done|]. by replace (nx * (j + 1)) with (0 + nx + nx * j) by lia.
  - rewrite E. destruct s' as [[g' cell'] n]. pose proof (wi_no _ _ _ _ _ Hs') as Hn. cbn in Hn. subst n. exists g', cell'. done.
Qed.

Lemma winv_numbered g F T g' cell' : winv g F T (nx * ny) (g', cell', length (Dq (nx * ny))) → numbered nx ny nz plist cell' (length (Dq (nx * ny))).
Proof.
  intros [_ _ _ _ _ Hlen Hdone Hdead]. cbn [fst snd] in *.
  assert (Hlv : ∀ i j k, live nx ny nz plist i j k → ∃ v, v < length (Dq (nx * ny)) ∧ Dq (nx * ny) !! v = Some (cellidx i j k)).
  { intros i j k Hl. pose proof (proj1 Hl) as (Hi & Hj & Hk). assert (cellidx i j k ∈ Dq (nx * ny)) as H. { apply Dq_in; [done|]. exists i, j, k. split; [done|]. split; [nia|]. split; [done|]. split; [by apply alive_live|done]. }
    apply elem_of_list_lookup in H as [v Hv]. exists v. split; [by eapply lookup_lt_Some|done]. }
  split.
  - done.
  - intros i j k (Hi & Hj & Hk) Hnl. apply Hdead; [done|nia|done|]. by rewrite alive_live.
  - intros i j k Hl. destruct (Hlv i j k Hl) as (v & Hv & E). exists v. split; [done|]. by apply Hdone.
  - intros v Hv. destruct (lookup_lt_is_Some_2 _ _ Hv) as [c Hc]. pose proof (Hdone v c Hc) as Hcell. apply elem_of_list_lookup_2 in Hc. apply Dq_in in Hc as (i & j & k & Hi & Hlt & Hk & Ha & ->); [|done]. exists i, j, k. split; [|done]. apply alive_live; [done|nia|done|done].
  - intros i j k i' j' k' v Hl Hl' Hv Hv'. destruct (Hlv i j k Hl) as (w & _ & E). destruct (Hlv i' j' k' Hl') as (w' & _ & E').
    rewrite (Hdone w _ E) in Hv. rewrite (Hdone w' _ E') in Hv'. injection Hv as <-. injection Hv' as Hw. apply Nat2Z.inj in Hw as ->. rewrite E in E'. injection E' as E'.
    pose proof (proj1 Hl) as (Hi & Hj & Hk). pose proof (proj1 Hl') as (Hi' & Hj' & Hk'). by apply (num_inj nx ny i j k i' j' k') in E'.
Qed.

Lemma cid_inj i j k i' j' k' : in_grid nx ny nz i j k → in_grid nx ny nz i' j' k' → cid nx ny i j k = cid nx ny i' j' k' → i = i' ∧ j = j' ∧ k = k'.
Proof. intros (Hi & Hj & Hk) (Hi' & Hj' & Hk') E. apply Nat2Z.inj in E. by apply (num_inj nx ny i j k i' j' k') in E. Qed.
Lemma cid_col_inj i j : i < nx → j < ny → ∀ k k', cid nx ny i j k = cid nx ny i j k' → k = k'.
Proof. intros Hi Hj k k' E. apply Nat2Z.inj in E. by apply (num_inj nx ny i j k i j k') in E as (_ & _ & ?). Qed.

Lemma Fq_right : right_horizontal nx ny nz plist (Fq (nx * ny)).
Proof.
  assert (Hnn : ∀ i j k, (0 ≤ cid nx ny i j k)%Z) by (intros; unfold cid; lia).
  assert (Hin : ∀ x, x ∈ Fq (nx * ny) → ∃ i j, i < nx ∧ j < ny ∧ x ∈ hc i j).
  { intros x Hx. apply elem_of_list_In, in_concat in Hx as (l & H1 & H2). apply elem_of_list_In, elem_of_list_fmap in H1 as (q' & -> & Hq'). apply elem_of_seq in Hq'. assert (nx ≠ 0) by (intros Ez; rewrite Ez in Hq'; cbn in Hq'; lia). exists (q' mod nx), (q' / nx). split; [by apply Nat.mod_upper_bound|]. split; [apply Nat.div_lt_upper_bound; [done|lia]|by apply elem_of_list_In]. }
  assert (Hin' : ∀ x i j, i < nx → j < ny → x ∈ hc i j → x ∈ Fq (nx * ny)).
  { intros x i j Hi Hj Hx. apply elem_of_list_In, in_concat. exists (hcq (i + nx * j)). split; [apply elem_of_list_In, elem_of_list_fmap; exists (i + nx * j); split; [done|]; apply elem_of_seq; nia|]. unfold hcq. destruct (q_split i j Hi) as [-> ->]. by apply elem_of_list_In. }
  assert (Hcol : ∀ (i j : nat) (x : face), i < nx → j < ny → x ∈ hc i j → (fc_a x = (-1)%Z ∨ ∃ k, live nx ny nz plist i j k ∧ fc_a x = cid nx ny i j k) ∧ (fc_b x = (-1)%Z ∨ ∃ k, live nx ny nz plist i j k ∧ fc_b x = cid nx ny i j k) ∧ (fc_a x ≠ (-1)%Z ∨ fc_b x ≠ (-1)%Z)).
  { intros i j x Hi Hj Hx. destruct (hcol_in nz (lv i j) (λ k, cid nx ny i j k) (Hnn i j) x Hx) as (H1 & H2 & H3). split; [|split; [|done]].
    - destruct H1 as [?|(k & Hk & Ha & ?)]; [by left|right]. exists k. split; [by apply alive_live|done].
    - destruct H2 as [?|(k & Hk & Ha & ?)]; [by left|right]. exists k. split; [by apply alive_live|done]. }
  assert (Hother : ∀ i j k q', in_grid nx ny nz i j k → q' < nx * ny → q' ≠ i + nx * j → ∀ x, x ∈ hcq q' → fc_a x ≠ cid nx ny i j k ∧ fc_b x ≠ cid nx ny i j k).
  { intros i j k q' Hg Hq' Hne x Hx. assert (nx ≠ 0) as Hn0 by (intros Ez; rewrite Ez in Hq'; cbn in Hq'; lia). pose proof (Nat.div_mod q' nx Hn0) as Hdm. assert (q' / nx < ny) as Hj' by (apply Nat.div_lt_upper_bound; lia).
    destruct (Hcol (q' mod nx) (q' / nx) x (Nat.mod_upper_bound _ _ Hn0) Hj' Hx) as (H1 & H2 & _). pose proof (Hnn i j k). split.
    - destruct H1 as [->|(k' & Hl & ->)]; [lia|]. intros E. apply cid_inj in E as (E1 & E2 & _); [|apply Hl|done]. apply Hne. rewrite <- E1, <- E2. lia.
    - destruct H2 as [->|(k' & Hl & ->)]; [lia|]. intros E. apply cid_inj in E as (E1 & E2 & _); [|apply Hl|done]. apply Hne. rewrite <- E1, <- E2. lia. }
  split.
  - intros i j k Hl. pose proof (proj1 Hl) as (Hi & Hj & Hk). unfold Fq. rewrite (filter_concat_one _ _ _ (i + nx * j)); [|nia|intros q' Hq' Hne x Hx; by apply (Hother i j k q')].
    unfold hcq. destruct (q_split i j Hi) as [-> ->].
    destruct (hgo_top (lv i j) (λ k, cid nx ny i j k) (Hnn i j) (cid_col_inj i j Hi Hj) (2 * nz) 1 (-1) k) as (x & Ex & Hx); [apply start_pinv|by apply alive_live|lia|lia|]. exists x. split; [done|]. apply quad_lv; [lia..|]. done.
  - intros i j k Hl. pose proof (proj1 Hl) as (Hi & Hj & Hk). unfold Fq. rewrite (filter_concat_one _ _ _ (i + nx * j)); [|nia|intros q' Hq' Hne x Hx; by apply (Hother i j k q')].
    unfold hcq. destruct (q_split i j Hi) as [-> ->].
    destruct (hgo_bottom nz (lv i j) (λ k, cid nx ny i j k) (Hnn i j) (cid_col_inj i j Hi Hj) (2 * nz) 1 (-1) k) as (x & Ex & Hx); [lia|by apply lv_end|apply start_pinv|by apply alive_live|right; lia|lia|lia|]. exists x. split; [done|]. apply quad_lv; [lia..|]. rewrite Hx. f_equal. lia.
  - intros x (i & j & Hi & Hj & Hx)%Hin. destruct (Hcol i j x Hi Hj Hx) as ([?|(k & ? & ?)] & _ & _); [by left|right; by exists i, j, k].
  - intros x (i & j & Hi & Hj & Hx)%Hin. destruct (Hcol i j x Hi Hj Hx) as (_ & [?|(k & ? & ?)] & _); [by left|right; by exists i, j, k].
  - intros x (i & j & Hi & Hj & Hx)%Hin. by destruct (Hcol i j x Hi Hj Hx) as (_ & _ & ?).
  - intros i j k i' j' k' Hl Hl'. pose proof (proj1 Hl) as Hg. pose proof (proj1 Hl') as Hg'. pose proof Hg as (Hi & Hj & Hk). pose proof Hg' as (Hi' & Hj' & Hk').
    assert (Hsame : i = i' ∧ j = j' → (∃ x, x ∈ hc i j ∧ fc_a x = cid nx ny i j k ∧ fc_b x = cid nx ny i j k') ↔ touching nx nz plist i j k k').
    { intros [<- <-]. etransitivity; [apply (hcol_shared nz (lv i j) (λ k, cid nx ny i j k) (Hnn i j) (cid_col_inj i j Hi Hj) k k' Hk'); by apply alive_live|]. unfold touching. split.
      - intros [Hlt H]. split; [done|]. intros l q q' Hl1 Hl2 Hq Hq'. apply quad_lv in Hq as ->; [|lia..]. apply quad_lv in Hq' as ->; [|lia..]. rewrite (H (l + 1)) by lia. f_equal. lia.
      - intros [Hlt H]. split; [done|]. intros l Hl1 Hl2. replace (2 * k + 2) with (2 * k + 1 + 1) by lia. symmetry. apply (H (l - 1)); [lia|lia|by apply quad_lv; [lia..|]|]. apply quad_lv; [lia..|]. f_equal. lia. }
    split.
    + intros (x & Hx & Ea & Eb). apply Hin in Hx as (a & b & Ha & Hb & Hx). destruct (Hcol a b x Ha Hb Hx) as (H1 & H2 & _). pose proof (Hnn i j k). pose proof (Hnn i' j' k').
      destruct H1 as [H1|(c & Hc & H1)]; [lia|]. destruct H2 as [H2|(c' & Hc' & H2)]; [lia|]. rewrite H1 in Ea. rewrite H2 in Eb. apply cid_inj in Ea as (-> & -> & ->); [|apply Hc|done]. apply cid_inj in Eb as (<- & <- & ->); [|apply Hc'|done].
      split; [done|]. split; [done|]. apply Hsame; [done|]. by exists x.
    + intros (<- & <- & Ht). apply Hsame in Ht as (x & Hx & ? & ?); [|done]. exists x. split; [by apply (Hin' x i j)|done].
Qed.
End loop.
