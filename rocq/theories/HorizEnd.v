(** The final renumbering of the cells. *)
From Verif Require Import Base LoopModel LoopProof UniqModel UniqSpec PrepModel HorizSpec HorizProof HorizLoop.
Unset Default Proof Using.

Section pick.
Context (P : nat → Prop) {HD : ∀ x, Decision (P x)}.
Definition picked (n : nat) : list nat := filter P (seq 0 n).
Lemma picked_S n : picked (S n) = picked n ++ (if decide (P n) then [n] else []).
Proof. unfold picked. rewrite seq_S, filter_app. done. Qed.
Lemma picked_in n c : c ∈ picked n ↔ c < n ∧ P c.
Proof. unfold picked. rewrite elem_of_list_filter, elem_of_seq. cbn. split; intros [? ?]; split; try done; lia. Qed.
Lemma picked_rank n c : c < n → P c → picked n !! length (picked c) = Some c.
Proof.
  induction n as [|n IH]; intros Hc HP; [lia|]. rewrite picked_S. destruct (decide (c = n)) as [->|].
  - rewrite decide_True by done. by rewrite lookup_app_r, Nat.sub_diag.
  - apply lookup_app_l_Some. apply IH; [lia|done].
Qed.
Lemma picked_mono n v v' c c' : v < v' → picked n !! v = Some c → picked n !! v' = Some c' → c < c'.
Proof.
  induction n as [|n IH]; intros Hv H H'; [done|]. rewrite picked_S in H, H'. apply lookup_app_Some in H' as [H'|[Hl H']].
  - rewrite lookup_app_l in H by (apply lookup_lt_Some in H'; lia). by apply IH.
  - destruct (decide (P n)); [|done]. apply list_lookup_singleton_Some in H' as [Hz <-]. rewrite lookup_app_l in H by lia. apply elem_of_list_lookup_2, picked_in in H. lia.
Qed.
Lemma picked_NoDup n : NoDup (picked n). Proof. apply NoDup_filter, NoDup_seq. Qed.
End pick.

Section enumerate.
Variables (nc : nat) (cell gci : list Z).
Hypothesis Hc : length cell = nc.
Hypothesis Hg : length gci = nc.
Notation alive c := (cell !! c ≠ Some (-1)%Z).
Notation rank c := (length (picked (λ c, alive c) c)).

Definition einv (i : nat) (s : list Z * list Z * nat) : Prop :=
  s.2 = rank i ∧ length s.1.1 = nc ∧ length s.1.2 = nc ∧ (∀ c, i ≤ c → s.1.1 !! c = cell !! c) ∧
  (∀ c, c < i → s.1.1 !! c = Some (if decide (alive c) then Z.of_nat (rank c) else (-1)%Z)) ∧
  ∃ r, s.1.2 = (Z.of_nat <$> picked (λ c, alive c) i) ++ r.
Lemma enumerate_ok : ∃ cell' gci' r, enumerate_cells nc cell gci = Some (cell', gci', rank nc) ∧ length cell' = nc ∧ length gci' = nc ∧
  (∀ c, c < nc → cell' !! c = Some (if decide (alive c) then Z.of_nat (rank c) else (-1)%Z)) ∧ gci' = (Z.of_nat <$> picked (λ c, alive c) nc) ++ r.
Proof using Hc Hg.
  unfold enumerate_cells.
  match goal with |- context [for_loop _ _ ?b _] => destruct (for_loop_inv einv nc 0 b (cell, gci, 0)) as (s & E & Hs) end.
  - split_and!; try done; [intros c ?; lia|by exists gci].
  - intros i [[ce gc] n] Hi (E1 & E2 & E3 & E4 & E5 & r & E6). cbn [fst snd] in *. rewrite E4 by done. destruct (lookup_lt_is_Some_2 cell i) as [v Hv]; [lia|]. rewrite Hv. cbn [mbind option_bind].
    replace (i + 1) with (S i) by lia. destruct (decide (v = (-1)%Z)) as [->|Hne].
    + assert (Hd : ¬ alive i) by (rewrite Hv; naive_solver). eexists. split; [done|]. unfold einv. cbn [fst snd]. rewrite picked_S, decide_False, app_nil_r by done. split_and!; try done.
      * intros c Hci. apply E4. lia.
      * intros c Hci. destruct (decide (c = i)) as [->|]; [|apply E5; lia]. rewrite decide_False by done. by rewrite E4.
      * by exists r.
    + assert (Hd : alive i) by (rewrite Hv; congruence). rewrite E1.
      assert (Hlt : rank i < nc). { pose proof (picked_rank (λ c, alive c) nc i ltac:(lia) Hd) as Hr. apply lookup_lt_Some in Hr. pose proof (filter_length (λ c, alive c) (seq 0 nc)) as Hf. rewrite seq_length in Hf. unfold picked in *. lia. }
      rewrite upd_Some by lia. cbn [mbind option_bind]. rewrite upd_Some by lia. cbn [mbind option_bind]. eexists. split; [done|]. unfold einv. cbn [fst snd]. rewrite picked_S, decide_True, app_length by done. cbn [length]. split_and!.
      * done.
      * by rewrite insert_length.
      * by rewrite insert_length.
      * intros c Hci. rewrite list_lookup_insert_ne by lia. apply E4. lia.
      * intros c Hci. destruct (decide (c = i)) as [->|].
        -- rewrite list_lookup_insert by lia. by rewrite decide_True.
        -- rewrite list_lookup_insert_ne by lia. apply E5. lia.
      * rewrite E6. assert (Hr : r ≠ []). { intros ->. rewrite E6, app_nil_r, fmap_length in E3. lia. } destruct r as [|x r]; [done|]. exists r. rewrite insert_app_r_alt by (by rewrite fmap_length). rewrite fmap_length, Nat.sub_diag, fmap_app, <- app_assoc. done.
  - destruct s as [[ce gc] n]. destruct Hs as (E1 & E2 & E3 & E4 & E5 & r & E6). cbn [fst snd Nat.add] in *. subst n. exists ce, gc, r. done.
Qed.
End enumerate.

(** The places of a remapped array. *)
Section remap.
Variables (cell : list Z).
Definition ren (v : Z) : Z := if decide (v = -1)%Z then (-1)%Z else default (-1)%Z (cell !! Z.to_nat v).
Lemma remap_go l r n : length l = n → (∀ v, v ∈ l → v = (-1)%Z ∨ (0 ≤ v ∧ v < Z.of_nat (length cell))%Z) → ∀ a, 
  for_loop n (length a) (λ i nbr, v ← nbr !! i; if decide (v = -1)%Z then Some nbr else if decide (v < 0)%Z then None else w ← cell !! Z.to_nat v; upd nbr i w) (a ++ l ++ r) = Some (a ++ (ren <$> l) ++ r).
Proof.
  revert n. induction l as [|v l IH]; intros n Hn Hl a; destruct n as [|n]; try done. cbn [for_loop app]. rewrite (list_lookup_middle _ _ v _ eq_refl). cbn [mbind option_bind].
  assert (E : ∀ w, upd (a ++ v :: l ++ r) (length a) w = Some ((a ++ [w]) ++ l ++ r)). { intros w. rewrite upd_Some by (rewrite app_length; cbn; lia). rewrite insert_app_r_alt, Nat.sub_diag by done. cbn. by rewrite <- app_assoc. }
  assert (Hl' : ∀ v, v ∈ l → v = (-1)%Z ∨ (0 ≤ v ∧ v < Z.of_nat (length cell))%Z) by (intros w Hw; apply Hl, elem_of_cons; by right).
  assert (G : ∀ w, w = ren v → for_loop n (length a + 1) (λ i nbr, v ← nbr !! i; if decide (v = -1)%Z then Some nbr else if decide (v < 0)%Z then None else w ← cell !! Z.to_nat v; upd nbr i w) ((a ++ [w]) ++ l ++ r) = Some (a ++ (ren <$> v :: l) ++ r)).
  { intros w ->. specialize (IH n ltac:(by injection Hn) Hl' (a ++ [ren v])). rewrite app_length in IH. cbn [length] in IH. rewrite IH. rewrite <- app_assoc. done. }
  rewrite ?Nat.add_1_r. rewrite ?Nat.add_1_r in G. unfold ren in G at 1. destruct (decide (v = (-1)%Z)) as [->|Hne].
  - cbn [mbind option_bind]. specialize (G (-1)%Z eq_refl). rewrite <- app_assoc in G. exact G.
  - destruct (Hl v ltac:(apply elem_of_cons; by left)) as [?|[H1 H2]]; [done|]. rewrite decide_False by lia. destruct (lookup_lt_is_Some_2 cell (Z.to_nat v)) as [w Hw]; [lia|]. rewrite Hw. cbn [mbind option_bind]. rewrite E. cbn [mbind option_bind]. apply G. by rewrite Hw.
Qed.
End remap.

Section final.
Variables (nx ny nz : nat) (plist : list Z).
Notation cellidx i j k := (i + nx * (j + ny * k)).
Lemma numbered_enum cell gci n : padded nx ny nz plist → numbered nx ny nz plist cell n → length gci = nx * ny * nz →
  ∃ cell' gci', enumerate_cells (nx * ny * nz) cell gci = Some (cell', gci', n) ∧ enumerated nx ny nz plist cell' gci' n.
Proof.
  intros Hpad [Hlen Hdead Hlive Honto Hinj] Hg. destruct (enumerate_ok (nx * ny * nz) cell gci Hlen Hg) as (cell' & gci' & r & E & L1 & L2 & H1 & H2).
  set (Pc := λ c, cell !! c ≠ Some (-1)%Z) in *. set (nc := nx * ny * nz) in *.
  assert (Hal : ∀ i j k, in_grid nx ny nz i j k → cellidx i j k < nc) by (intros i j k (? & ? & ?); by apply (num_lt nx ny nz i j k)).
  assert (Hli : ∀ i j k, live nx ny nz plist i j k → Pc (cellidx i j k)). { intros i j k Hl. destruct (Hlive i j k Hl) as (v & _ & Hv). unfold Pc. rewrite Hv. intros ?. simplify_eq. lia. }
  assert (Hil : ∀ c, c < nc → Pc c → ∃ i j k v, live nx ny nz plist i j k ∧ c = cellidx i j k ∧ v < n ∧ cell !! c = Some (Z.of_nat v)).
  { intros c Hc HP. destruct (num_surj nx ny nz c Hc) as (i & j & k & Hi & Hj & Hk & Ec).
    destruct (lookup_lt_is_Some_2 cell c) as [v Hv]; [lia|]. assert (Hdec : live nx ny nz plist i j k ∨ ¬ live nx ny nz plist i j k) by (rewrite <- (alive_live nx ny nz plist Hpad i j k Hi Hj Hk); destruct (decide (alive (lv nx ny nz plist i j) k)); auto). destruct Hdec as [Hl|Hnl].
    - destruct (Hlive i j k Hl) as (w & Hw & Hcw). exists i, j, k, w. split; [done|]. split; [done|]. split; [done|]. rewrite Ec. exact Hcw.
    - destruct HP. rewrite Ec. by apply Hdead. }
  assert (Hn : length (picked Pc nc) = n).
  { set (val := λ c, Z.to_nat (default (-1)%Z (cell !! c))). assert (Hp : val <$> picked Pc nc ≡ₚ seq 0 n).
    { apply NoDup_Permutation.
      - apply NoDup_fmap_2_strong; [|apply picked_NoDup]. intros c c' Hc Hc' Ev. apply picked_in in Hc as [Hc HP], Hc' as [Hc' HP'].
        destruct (Hil c Hc HP) as (i & j & k & v & Hl & -> & _ & Hv). destruct (Hil c' Hc' HP') as (i' & j' & k' & v' & Hl' & -> & _ & Hv').
        unfold val in Ev. rewrite Hv, Hv' in Ev. cbn in Ev. rewrite !Nat2Z.id in Ev. subst v'. by destruct (Hinj i j k i' j' k' (Z.of_nat v) Hl Hl' Hv Hv') as (-> & -> & ->).
      - apply NoDup_seq.
      - intros v. rewrite elem_of_list_fmap, elem_of_seq. split.
        + intros (c & -> & [Hc HP]%picked_in). destruct (Hil c Hc HP) as (i & j & k & v & Hl & -> & Hlt & Hv). unfold val. rewrite Hv. cbn. rewrite Nat2Z.id. lia.
        + intros [_ Hv]. cbn in Hv. destruct (Honto v Hv) as (i & j & k & Hl & Hc). exists (cellidx i j k). split; [unfold val; rewrite Hc; cbn; by rewrite Nat2Z.id|]. apply picked_in. split; [apply Hal, Hl|by apply Hli]. }
    apply Permutation_length in Hp. by rewrite fmap_length, seq_length in Hp. }
  rewrite Hn in E. exists cell', gci'. split; [done|].
  assert (Hrank : ∀ i j k, live nx ny nz plist i j k → cell' !! cellidx i j k = Some (Z.of_nat (length (picked Pc (cellidx i j k)))) ∧ picked Pc nc !! length (picked Pc (cellidx i j k)) = Some (cellidx i j k)).
  { intros i j k Hl. split; [|apply picked_rank; [apply Hal, Hl|by apply Hli]]. rewrite H1 by apply Hal, Hl. rewrite decide_True; [done|by apply Hli]. }
  assert (Hgl : ∀ v, v < n → gci' !! v = (Z.of_nat <$> picked Pc nc) !! v). { intros v Hv. rewrite H2. apply lookup_app_l. rewrite fmap_length. lia. }
  split; [split|..].
  - done.
  - intros i j k Hi Hnl. rewrite H1 by (by apply Hal). rewrite decide_False; [done|]. intros HP. apply HP. by apply Hdead.
  - intros i j k Hl. destruct (Hrank i j k Hl) as [E1 E2]. eexists. split; [|done]. apply lookup_lt_Some in E2. lia.
  - intros v Hv. destruct (lookup_lt_is_Some_2 (picked Pc nc) v) as [c Hc]; [lia|]. pose proof Hc as Hc'. apply elem_of_list_lookup_2, picked_in in Hc' as [Hlt HP]. destruct (Hil c Hlt HP) as (i & j & k & w & Hl & -> & _ & _).
    exists i, j, k. split; [done|]. destruct (Hrank i j k Hl) as [E1 E2]. rewrite E1. do 2 f_equal. eapply NoDup_lookup; [apply (picked_NoDup Pc nc)|done|done].
  - intros i j k i' j' k' v Hl Hl' Hv Hv'. destruct (Hrank i j k Hl) as [E1 E2]. destruct (Hrank i' j' k' Hl') as [E1' E2']. rewrite E1 in Hv. rewrite E1' in Hv'. assert (Er : length (picked Pc (cellidx i j k)) = length (picked Pc (cellidx i' j' k'))) by (apply Nat2Z.inj; congruence).
    rewrite Er, E2' in E2. injection E2 as E2. pose proof (proj1 Hl) as (? & ? & ?). pose proof (proj1 Hl') as (? & ? & ?). symmetry in E2. by apply (num_inj nx ny i j k i' j' k') in E2.
  - intros i j k v Hl Hv. destruct (Hrank i j k Hl) as [E1 E2]. rewrite E1 in Hv. injection Hv as Hv. apply Nat2Z.inj in Hv as <-. rewrite Hgl by (apply lookup_lt_Some in E2; lia). rewrite list_lookup_fmap, E2. done.
  - done.
  - intros v v' c c' Hv Hv' Hc Hc'. rewrite Hgl in Hc, Hc' by lia. rewrite list_lookup_fmap in Hc, Hc'. apply fmap_Some in Hc as (d & Hd & ->), Hc' as (d' & Hd' & ->). apply (picked_mono Pc nc v v' d d' Hv Hd) in Hd'. lia.
Qed.

Lemma remap_holds cell gci n g F : enumerated nx ny nz plist cell gci n → holds g F →
  (∀ x, x ∈ F → (fc_a x = (-1)%Z ∨ ∃ i j k, live nx ny nz plist i j k ∧ fc_a x = cid nx ny i j k) ∧ (fc_b x = (-1)%Z ∨ ∃ i j k, live nx ny nz plist i j k ∧ fc_b x = cid nx ny i j k)) →
  ∃ nbr F', remap (g_nf g) cell (g_nbr g) = Some nbr ∧ holds (PGrid (g_m g) (g_n g) nbr (g_nodes g) (g_ptr g) (g_tag g) (g_nf g) (g_its g) (g_nn g) (g_np g)) F' ∧ Forall2 (relabelled n gci) F F'.
Proof.
  intros Hen [Hnf [rn Hn] [rd Hd] Hp Hm L1 L2 L3 L4] HF. pose proof (en_numbered _ _ _ _ _ _ _ Hen) as Hnu.
  assert (Hal : ∀ i j k, live nx ny nz plist i j k → cellidx i j k < length cell) by (intros i j k ((? & ? & ?) & _); rewrite (nu_len _ _ _ _ _ _ Hnu); by apply (num_lt nx ny nz i j k)).
  assert (Hren : ∀ v, (v = (-1)%Z ∨ ∃ i j k, live nx ny nz plist i j k ∧ v = cid nx ny i j k) → local_of n gci v (ren cell v)).
  { intros v [->|(i & j & k & Hl & ->)]; [left; done|right]. destruct (nu_live _ _ _ _ _ _ Hnu i j k Hl) as (w & Hw & Ew). exists w. split; [done|]. unfold ren, cid. rewrite decide_False by lia. rewrite Nat2Z.id, Ew. split; [done|]. by apply (en_gci _ _ _ _ _ _ _ Hen). }
  set (l := concat ((λ x, [fc_a x; fc_b x]) <$> F)) in *. set (F' := (λ x, Face (ren cell (fc_a x)) (ren cell (fc_b x)) (fc_nodes x)) <$> F).
  assert (El : ren cell <$> l = concat ((λ x, [fc_a x; fc_b x]) <$> F')). { unfold l, F'. clear. induction F as [|x F IH]; [done|]. cbn [fmap list_fmap concat app]. do 2 f_equal. exact IH. }
  assert (En : fc_nodes <$> F' = fc_nodes <$> F). { unfold F'. rewrite <- list_fmap_compose. done. }
  assert (Enk : ∀ k, fc_nodes <$> take k F' = fc_nodes <$> take k F). { intros k. by rewrite !fmap_take, En. }
  exists ((ren cell <$> l) ++ rn), F'. split_and!.
  - unfold remap. rewrite Hnf, Hn. apply (remap_go cell l rn (2 * length F)) with (a := []); [apply nbr_length|]. intros v Hv. apply elem_of_list_In, in_concat in Hv as (y & Hy & Hvy). apply elem_of_list_In, elem_of_list_fmap in Hy as (x & -> & Hx).
    assert (Hv : v = (-1)%Z ∨ ∃ i j k, live nx ny nz plist i j k ∧ v = cid nx ny i j k). { destruct (HF x Hx) as [Ha Hb]. cbn in Hvy. destruct Hvy as [<-|[<-|[]]]; done. }
    destruct Hv as [->|(i & j & k & Hl & ->)]; [by left|right]. unfold cid. specialize (Hal i j k Hl). lia.
  - split; cbn [g_m g_n g_nbr g_nodes g_ptr g_tag g_nf g_its g_nn g_np]; try done; unfold F'; rewrite ?fmap_length; try done; fold F'.
    + exists rn. by rewrite El.
    + exists rd. by rewrite En.
    + intros k Hk. rewrite Enk. by apply Hp.
    + rewrite app_length, fmap_length. rewrite Hn, app_length in L1. done.
  - unfold F'. apply Forall2_fmap_r, Forall_Forall2_diag, Forall_forall. intros x Hx. destruct (HF x Hx) as [Ha Hb]. split_and!; cbn; [by apply Hren|by apply Hren|done].
Qed.
End final.
