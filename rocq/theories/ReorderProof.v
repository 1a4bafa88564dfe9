(** The upwind graph is what it should be. *)
From stdpp Require Import relations.
From Verif Require Import Base CsrSpec CsrProof GridModel GridSpec DfsProof DfsProps TarjanModel TarjanProof ReorderModel.

Section reorder.
Context {F : Type} (fpos fneg : F → bool) (fopp : F → F).
Hypothesis fpos_opp : ∀ x, fpos (fopp x) = fneg x.
Hypothesis fneg_opp : ∀ x, fneg (fopp x) = fpos x.
Hypothesis fpos_fneg : ∀ x, fpos x = true → fneg x = false.
Variable g : ugrid.
Variable cf : list (list nat).
Variable flux : list F.
Hypothesis Hg : grid_ok g cf.
Hypothesis Hflux : length flux = u_nf g.
Notation nc := (u_nc g).
Notation nf := (u_nf g).
Notation out_flux := (out_flux fopp g flux).

(** Fluid flows from cell [a] to cell [b] through face [f]. *)
Definition flows_via (f : nat) (a b : Z) : Prop := ∃ x, flux !! f = Some x ∧
  ((face_between g f a b ∧ fpos x = true) ∨ (face_between g f b a ∧ fneg x = true)).

Lemma face_some f : f < nf → ∃ a b, face_between g f a b.
Proof.
  intros Hf. pose proof (ok_faces _ _ Hg).
  destruct (lookup_lt_is_Some_2 (u_facecells g) (2 * f)) as [a Ha]; [lia|].
  destruct (lookup_lt_is_Some_2 (u_facecells g) (2 * f + 1)) as [b Hb]; [lia|]. by exists a, b.
Qed.
Lemma face_lt f a b : face_between g f a b → f < nf.
Proof. intros [_ H]. apply lookup_lt_Some in H. rewrite (ok_faces _ _ Hg) in H. lia. Qed.
Lemma face_inj f a b a' b' : face_between g f a b → face_between g f a' b' → a = a' ∧ b = b'.
Proof. intros [H1 H2] [H3 H4]. split; congruence. Qed.

(** The sign test in the code, for a cell and one of its faces. *)
Lemma out_pos i r f : cf !! i = Some r → f ∈ r →
  ∃ th o, out_flux i f = Some th ∧ (fpos th = true ↔ flows_via f (Z.of_nat i) o) ∧
    (fneg th = true ↔ flows_via f o (Z.of_nat i)) ∧
    (face_between g f (Z.of_nat i) o ∨ face_between g f o (Z.of_nat i)).
Proof.
  intros Hr Hf. apply (ok_inc _ _ Hg _ _ _ Hr) in Hf as (a & b & Hab & Hi).
  pose proof (face_lt _ _ _ Hab) as Hlt. destruct (lookup_lt_is_Some_2 flux f) as [x Hx]; [lia|].
  pose proof (ok_range _ _ Hg f a b Hab) as (Ha & Hb & Hne).
  unfold ReorderModel.out_flux. destruct Hab as [E1 E2]. rewrite E1, Hx. cbn [mbind option_bind].
  destruct (decide (Z.of_nat i = a)) as [Hia|Hia].
  - exists x, b. subst a. split; [done|]. split_and!.
    + split; [intros H; exists x; split; [done|left; by split]|].
      intros (x' & Hx' & [[_ ?]|[[E3 _] _]]); [by simplify_eq|]. rewrite E1 in E3. simplify_eq. lia.
    + split; [intros H; exists x; split; [done|right; by split]|].
      intros (x' & Hx' & [[[E3 _] _]|[_ ?]]); [|by simplify_eq]. rewrite E1 in E3. simplify_eq. lia.
    + by left.
  - destruct Hi as [?|Hi]; [done|]. subst b. exists (fopp x), a. split; [done|]. rewrite fpos_opp, fneg_opp. split_and!.
    + split; [intros H; exists x; split; [done|right; by split]|].
      intros (x' & Hx' & [[[E3 _] _]|[_ ?]]); [|by simplify_eq]. rewrite E1 in E3. simplify_eq.
    + split; [intros H; exists x; split; [done|left; by split]|].
      intros (x' & Hx' & [[_ ?]|[[E3 _] _]]); [by simplify_eq|]. rewrite E1 in E3. simplify_eq.
    + by right.
Qed.

Lemma flows_via_fun f a b a' b' : flows_via f a b → flows_via f a' b' → a = a' ∧ b = b'.
Proof.
  intros (x & Hx & H) (x' & Hx' & H'). simplify_eq.
  destruct H as [[H Hp]|[H Hp]], H' as [[H' Hp']|[H' Hp']];
    try (rewrite (fpos_fneg _ Hp) in Hp'; done); try (rewrite (fpos_fneg _ Hp') in Hp; done);
    destruct (face_inj _ _ _ _ _ H H'); done.
Qed.

(** ** Upwind cells *)
Definition up_done (P : nat → nat → Prop) (work : list nat) : Prop :=
  ∀ f i o, P i f → flows_via f (Z.of_nat i) o → work !! f = Some i.

(** The cell's faces, as read through the pointers. *)
Lemma cell_js i r : cf !! i = Some r → ∃ b e, u_facepos g !! i = Some b ∧ u_facepos g !! S i = Some e ∧
  e - b = length r ∧ ∀ k, k < length r → u_cellfaces g !! (b + k) = r !! k.
Proof.
  intros Hr. destruct (ok_rows _ _ Hg) as (_ & _ & _ & H). destruct (H i r Hr) as (b & e & Hb & He & Hle & Hs).
  exists b, e. split_and!; [done|done| |].
  - symmetry. by eapply slice_length.
  - intros k Hk. apply (slice_lookup _ _ _ _ k Hs). pose proof (slice_length _ _ _ _ Hs). lia.
Qed.

Lemma up_row_ok i r b work k (P : nat → nat → Prop) :
  cf !! i = Some r → (∀ k, k < length r → u_cellfaces g !! (b + k) = r !! k) →
  length work = Nat.max nf (3 * nc) → k ≤ length r → up_done P work →
  (∀ f, P i f ∨ f ∈ take k r → P i f) →
  ∃ work', up_row fpos fopp g flux i (seq (b + k) (length r - k)) work = Some work' ∧
    length work' = length work ∧ up_done (λ c f, P c f ∨ (c = i ∧ f ∈ r)) work'.
Proof.
  intros Hr Hread. remember (length r - k) as n eqn:Hn. revert k work P Hn.
  induction n as [|n IH]; intros k work P Hn Hl Hk Hd HP; cbn [seq up_row].
  - exists work. split_and!; [done|done|]. intros f c o [Hc|[-> Hc]] Hfl; [by eapply Hd|].
    eapply Hd; [|done]. apply HP. right. by rewrite take_ge by lia.
  - rewrite Hread by lia. destruct (lookup_lt_is_Some_2 r k) as [f Hf]; [lia|]. rewrite Hf. cbn [mbind option_bind].
    destruct (out_pos i r f Hr) as (th & o & Eth & Hpos & Hneg & Hbtw); [by eapply elem_of_list_lookup_2|].
    rewrite Eth. cbn [mbind option_bind].
    assert (Hflt : f < nf) by (destruct Hbtw as [H|H]; by eapply face_lt).
    set (P' := λ c f', P c f' ∨ (c = i ∧ f' = f)).
    assert (Hstep : ∃ w1, (if fpos th then upd work f i else Some work) = Some w1 ∧ length w1 = length work ∧ up_done P' w1).
    { destruct (fpos th) eqn:Eth'.
      - rewrite upd_Some by lia. eexists. split_and!; [done|by rewrite insert_length|].
        intros f' c o' [Hc|[-> ->]] Hfl.
        + destruct (decide (f' = f)) as [->|Hne].
          * rewrite list_lookup_insert by lia. f_equal.
            destruct (flows_via_fun _ _ _ _ _ Hfl (proj1 Hpos eq_refl)) as [E _]. lia.
          * rewrite list_lookup_insert_ne by done. by eapply Hd.
        + rewrite list_lookup_insert by lia. done.
      - exists work. split_and!; [done|done|]. intros f' c o' [Hc|[-> ->]] Hfl; [by eapply Hd|].
        assert (o' = o) as ->.
        { destruct Hfl as (x & _ & [[H _]|[H _]]), Hbtw as [H'|H']; destruct (face_inj _ _ _ _ _ H H'); congruence. }
        apply Hpos in Hfl. done. }
    destruct Hstep as (w1 & -> & Hl1 & Hd1). cbn [mbind option_bind].
    replace (S (b + k)) with (b + S k) by lia.
    destruct (IH (S k) w1 P' ltac:(lia) ltac:(lia) ltac:(lia) Hd1) as (w2 & E2 & Hl2 & Hd2).
    { intros f' [H|H]; [done|]. rewrite (take_S_r _ _ _ Hf) in H. apply elem_of_app in H as [H|H].
      - left. apply HP. by right.
      - apply elem_of_list_singleton in H as ->. by right. }
    exists w2. split_and!; [done|lia|]. intros f' c o' Hc Hfl. eapply Hd2; [|done].
    destruct Hc as [Hc|Hc]; [by left; left|by right].
Qed.

Lemma up_cells_ok n i work :
  i + n = nc → length work = Nat.max nf (3 * nc) →
  up_done (λ c f, c < i ∧ ∃ r, cf !! c = Some r ∧ f ∈ r) work →
  ∃ work', up_cells fpos fopp g flux n i work = Some work' ∧ length work' = length work ∧
    up_done (λ c f, ∃ r, cf !! c = Some r ∧ f ∈ r) work'.
Proof.
  revert i work. induction n as [|n IH]; intros i work Hin Hl Hd; cbn [up_cells].
  - exists work. split_and!; [done|done|]. intros f c o (r & Hr & Hf) Hfl. eapply Hd; [|done].
    split; [|by exists r]. apply lookup_lt_Some in Hr. rewrite (ok_cells _ _ Hg) in Hr. lia.
  - destruct (lookup_lt_is_Some_2 cf i) as [r Hr]; [rewrite (ok_cells _ _ Hg); lia|].
    destruct (cell_js i r Hr) as (b & e & Hb & He & Hlen & Hread). rewrite Hb, He. cbn [mbind option_bind].
    rewrite Hlen.
    destruct (up_row_ok i r b work 0 _ Hr Hread Hl ltac:(lia) Hd) as (w1 & E1 & Hl1 & Hd1).
    { intros f [H|H]; [done|]. by apply elem_of_nil in H. }
    rewrite Nat.add_0_r, Nat.sub_0_r in E1. rewrite E1. cbn [mbind option_bind].
    destruct (IH (S i) w1 ltac:(lia) ltac:(lia)) as (w2 & E2 & Hl2 & Hd2).
    { intros f c o [Hc (r' & Hr' & Hf)] Hfl. eapply Hd1; [|done].
      destruct (decide (c = i)) as [->|]; [right; by simplify_eq|left]. split; [lia|by exists r']. }
    exists w2. split_and!; [done|lia|done].
Qed.

(** ** The graph *)
(** The upwind neighbour over a face. *)
Definition inflow (work : list nat) (i f : nat) : option nat :=
  a ← u_facecells g !! (2 * f + 0); b ← u_facecells g !! (2 * f + 1);
  if decide (a = -1 ∨ b = -1)%Z then None
  else th ← out_flux i f; if fneg th then work !! f else None.

Lemma inflow_iff work i r f v :
  up_done (λ c f, ∃ r, cf !! c = Some r ∧ f ∈ r) work → cf !! i = Some r → f ∈ r →
  (inflow work i f = Some v ↔ flows_via f (Z.of_nat v) (Z.of_nat i)).
Proof.
  intros Hd Hr Hf. destruct (out_pos i r f Hr Hf) as (th & o & Eth & Hpos & Hneg & Hbtw).
  unfold inflow. rewrite Eth.
  assert (Hval : flows_via f o (Z.of_nat i) → ∀ v, o = Z.of_nat v → work !! f = Some v).
  { intros Hfl w ->. eapply Hd; [|done].
    assert (Hw : w < length cf).
    { rewrite (ok_cells _ _ Hg). destruct Hbtw as [H|H]; apply (ok_range _ _ Hg) in H; lia. }
    destruct (lookup_lt_is_Some_2 _ _ Hw) as [r' Hr']. exists r'. split; [done|].
    apply (ok_inc _ _ Hg _ _ _ Hr'). destruct Hbtw as [H|H]; eauto. }
  assert (Hfc : ∃ a b, u_facecells g !! (2 * f + 0) = Some a ∧ u_facecells g !! (2 * f + 1) = Some b ∧
     ((a = -1 ∨ b = -1)%Z ↔ o = (-1)%Z)).
  { rewrite Nat.add_0_r. destruct Hbtw as [[E1 E2]|[E1 E2]]; rewrite E1, E2; eexists _, _; (split_and!; [done|done|]); lia. }
  destruct Hfc as (a & b & -> & -> & Hout). cbn [mbind option_bind].
  destruct (decide (a = -1 ∨ b = -1)%Z) as [Hb|Hb].
  - split; [done|]. intros Hfl. exfalso. apply Hout in Hb as ->.
    destruct Hfl as (x & _ & [[H _]|[H _]]); destruct Hbtw as [H'|H']; destruct (face_inj _ _ _ _ _ H H'); lia.
  - destruct (fneg th) eqn:Efn.
    + assert (Hfl : flows_via f o (Z.of_nat i)) by (by apply Hneg).
      assert (Ho : o = Z.of_nat (Z.to_nat o)).
      { assert (Ho1 : o ≠ (-1)%Z) by (intros E; by apply Hb, Hout).
        destruct Hbtw as [Hb'|Hb']; apply (ok_range _ _ Hg) in Hb'; lia. }
      rewrite (Hval Hfl _ Ho). split.
      * intros [= <-]. by rewrite <- Ho.
      * intros Hfl'. destruct (flows_via_fun _ _ _ _ _ Hfl Hfl') as [E _]. f_equal. lia.
    + split; [done|]. intros Hfl.
      assert (o = Z.of_nat v) as ->.
      { destruct Hfl as (x & _ & [[H _]|[H _]]), Hbtw as [H'|H']; destruct (face_inj _ _ _ _ _ H H'); congruence. }
      apply Hneg in Hfl. done.
Qed.

Definition graph_row (work : list nat) (i : nat) : list nat := omap (inflow work i) (row cf i).
Definition graph (work : list nat) : list (list nat) := graph_row work <$> seq 0 nc.

(** The column array is long enough: every face leads into one cell at most. *)
Definition inflow_faces (work : list nat) (i : nat) : list nat :=
  filter (λ f, is_Some (inflow work i f)) (row cf i).
Lemma omap_length_filter {A B} (h : A → option B) (l : list A) :
  length (omap h l) = length (filter (λ x, is_Some (h x)) l).
Proof.
  induction l as [|x l IH]; [done|]. cbn [omap list_omap]. rewrite filter_cons.
  destruct (decide (is_Some (h x))) as [[y Hy]|Hn].
  - rewrite Hy. cbn [length]. by rewrite IH.
  - apply eq_None_not_Some in Hn. by rewrite Hn.
Qed.
Lemma graph_size work :
  up_done (λ c f, ∃ r, cf !! c = Some r ∧ f ∈ r) work → length (concat (graph work)) ≤ nf.
Proof.
  intros Hd.
  assert (Hrow : ∀ i f, f ∈ inflow_faces work i → ∃ r v, cf !! i = Some r ∧ f ∈ r ∧ flows_via f (Z.of_nat v) (Z.of_nat i)).
  { intros i f H. apply elem_of_list_filter in H as [[v Hv] Hf]. unfold row in Hf.
    destruct (cf !! i) as [r|] eqn:Hr; simpl in Hf; [|by apply elem_of_nil in Hf].
    exists r, v. split_and!; [done|done|]. by apply (inflow_iff work i r f v). }
  assert (E : length (concat (graph work)) = length (concat (inflow_faces work <$> seq 0 nc))).
  { unfold graph. generalize (seq 0 nc). induction l as [|i l IH]; [done|]. rewrite !fmap_cons; cbn [concat]; rewrite !app_length, IH. f_equal.
    apply omap_length_filter. }
  rewrite E. apply NoDup_bound.
  - assert (G : ∀ n k, NoDup (concat (inflow_faces work <$> seq k n))); [|apply G].
    induction n as [|n IH]; intros k; simpl; [apply NoDup_nil_2|]. apply NoDup_app. split_and!; [|  |apply IH].
    + apply NoDup_filter. unfold row. destruct (cf !! k) as [r|] eqn:Hr; simpl; [by eapply ok_nodup|apply NoDup_nil_2].
    + intros f H1 H2. apply Hrow in H1 as (r & v & Hr & Hf & Hfl).
      apply elem_of_list_In, in_concat in H2 as (l & Hl & Hf'). apply elem_of_list_In in Hl, Hf'.
      apply elem_of_list_fmap in Hl as (k' & -> & Hk'). apply elem_of_seq in Hk'.
      apply Hrow in Hf' as (r' & v' & Hr' & Hf' & Hfl').
      destruct (flows_via_fun _ _ _ _ _ Hfl Hfl') as [_ E']. lia.
  - intros f H. apply elem_of_list_In, in_concat in H as (l & Hl & Hf). apply elem_of_list_In in Hl, Hf.
    apply elem_of_list_fmap in Hl as (k & -> & Hk). apply Hrow in Hf as (r & v & Hr & Hf & Hfl).
    destruct Hfl as (x & _ & [[H _]|[H _]]); by eapply face_lt.
Qed.

Lemma fill_row_ok work i r b k ja p :
  up_done (λ c f, ∃ r, cf !! c = Some r ∧ f ∈ r) work → length work = Nat.max nf (3 * nc) →
  cf !! i = Some r → (∀ k, k < length r → u_cellfaces g !! (b + k) = r !! k) → k ≤ length r →
  p + length (omap (inflow work i) (drop k r)) ≤ length ja →
  ∃ ja', fill_row fneg fopp g flux i (seq (b + k) (length r - k)) work ja p
      = Some (ja', p + length (omap (inflow work i) (drop k r))) ∧
    length ja' = length ja ∧
    take (p + length (omap (inflow work i) (drop k r))) ja' = take p ja ++ omap (inflow work i) (drop k r).
Proof.
  intros Hd Hl Hr Hread. remember (length r - k) as n eqn:Hn. revert k ja p Hn.
  induction n as [|n IH]; intros k ja p Hn Hk Hroom; cbn [seq fill_row].
  - rewrite drop_ge by lia. exists ja. cbn [omap list_omap length]. rewrite Nat.add_0_r, app_nil_r. done.
  - rewrite Hread by lia. destruct (lookup_lt_is_Some_2 r k) as [f Hf]; [lia|]. rewrite Hf. cbn [mbind option_bind].
    rewrite (drop_S _ _ _ Hf) in Hroom |- *. cbn [omap list_omap] in Hroom |- *.
    replace (S (b + k)) with (b + S k) by lia.
    destruct (out_pos i r f Hr) as (th & o & Eth & Hpos & Hneg & Hbtw); [by eapply elem_of_list_lookup_2|].
    assert (Hflt : f < nf) by (destruct Hbtw as [H|H]; by eapply face_lt).
    destruct (face_some f Hflt) as (a & c & Ea & Ec).
    assert (Einf : inflow work i f = if decide (a = -1 ∨ c = -1)%Z then None else if fneg th then work !! f else None).
    { unfold inflow. rewrite Nat.add_0_r, Ea, Ec, Eth. done. }
    rewrite Nat.add_0_r, Ea, Ec, Eth. cbn [mbind option_bind].
    destruct (decide (a = -1 ∨ c = -1)%Z) as [Hb|Hb].
    { rewrite Einf in Hroom |- *. destruct (IH (S k) ja p ltac:(lia) ltac:(lia) Hroom) as (ja' & E & L & H). by exists ja'. }
    destruct (fneg th) eqn:Efn.
    2:{ rewrite Einf in Hroom |- *. destruct (IH (S k) ja p ltac:(lia) ltac:(lia) Hroom) as (ja' & E & L & H). by exists ja'. }
    destruct (lookup_lt_is_Some_2 work f) as [w Hw]; [lia|]. rewrite Hw in Einf. rewrite Einf in Hroom |- *.
    rewrite Hw. cbn [mbind option_bind].
    cbn [length] in Hroom |- *. rewrite (upd_Some ja) by lia. cbn [mbind option_bind].
    destruct (IH (S k) (<[p:=w]> ja) (S p) ltac:(lia) ltac:(lia)) as (ja' & E & L & H).
    { rewrite insert_length. lia. }
    exists ja'. rewrite E. split_and!.
    + f_equal. f_equal. lia.
    + by rewrite L, insert_length.
    + replace (p + S (length (omap (inflow work i) (drop (S k) r)))) with (S p + length (omap (inflow work i) (drop (S k) r))) by lia.
      rewrite H. rewrite (take_S_r _ _ w) by (apply list_lookup_insert; lia). rewrite take_insert by lia.
      by rewrite <- app_assoc.
Qed.

Lemma fill_cells_ok work n i ia ja p :
  up_done (λ c f, ∃ r, cf !! c = Some r ∧ f ∈ r) work → length work = Nat.max nf (3 * nc) →
  i + n = nc → length ia = S nc → length ja = nf →
  take (S i) ia = starts 0 (graph_row work <$> seq 0 i) →
  p = length (concat (graph_row work <$> seq 0 i)) → take p ja = concat (graph_row work <$> seq 0 i) →
  ∃ ia' ja', fill_cells fneg fopp g flux n i work ia ja p = Some (ia', ja') ∧
    ia' = starts 0 (graph work) ∧ take (length (concat (graph work))) ja' = concat (graph work).
Proof.
  intros Hd Hl. pose proof (graph_size work Hd) as Hsz. revert i ia ja p.
  induction n as [|n IH]; intros i ia ja p Hin Hia Hja Hti Hp Htj; cbn [fill_cells].
  - assert (i = nc) as -> by lia. exists ia, ja. unfold graph. split_and!; [done| |by rewrite <- Hp].
    rewrite <- Hti. by rewrite take_ge by lia.
  - destruct (lookup_lt_is_Some_2 cf i) as [r Hr]; [rewrite (ok_cells _ _ Hg); lia|].
    destruct (cell_js i r Hr) as (b & e & Hb & He & Hlen & Hread). rewrite Hb, He. cbn [mbind option_bind]. rewrite Hlen.
    assert (Hrow : graph_row work i = omap (inflow work i) r) by (unfold graph_row, row; by rewrite Hr).
    assert (Hseq : graph_row work <$> seq 0 (S i) = (graph_row work <$> seq 0 i) ++ [graph_row work i]).
    { rewrite seq_S, fmap_app. done. }
    assert (Hroom : p + length (graph_row work i) ≤ length ja).
    { assert (Hsplit : graph work = (graph_row work <$> seq 0 (S i)) ++ (graph_row work <$> seq (S i) n)).
      { unfold graph. rewrite <- Hin. replace (i + S n) with (S i + n) by lia. rewrite seq_app, fmap_app. done. }
      rewrite Hsplit, concat_app, Hseq, concat_app, !app_length in Hsz. simpl in Hsz. rewrite app_nil_r in Hsz. lia. }
    destruct (fill_row_ok work i r b 0 ja p Hd Hl Hr Hread ltac:(lia)) as (ja1 & E1 & L1 & T1).
    { rewrite drop_0, <- Hrow. lia. }
    rewrite Nat.add_0_r, Nat.sub_0_r, drop_0, <- Hrow in E1. rewrite drop_0, <- Hrow in T1.
    rewrite E1. cbn [mbind option_bind]. rewrite (upd_Some ia) by lia. cbn [mbind option_bind].
    assert (Hcc : concat (graph_row work <$> seq 0 (S i)) = concat (graph_row work <$> seq 0 i) ++ graph_row work i).
    { rewrite Hseq, concat_app. simpl. by rewrite app_nil_r. }
    apply IH.
    + lia.
    + by rewrite insert_length.
    + lia.
    + rewrite (take_S_r _ _ (p + length (graph_row work i))) by (apply list_lookup_insert; lia).
      rewrite take_insert by lia. rewrite Hti, Hseq, starts_snoc. f_equal. f_equal.
      rewrite <- Hseq, Hcc, app_length. lia.
    + rewrite Hcc, app_length. lia.
    + rewrite T1, Hcc. by rewrite Htj.
Qed.

Lemma make_upwind_graph_ok ia ja work :
  length ia = S nc → length ja = nf → length work = Nat.max nf (3 * nc) →
  ∃ ia' ja' rows, make_upwind_graph fpos fneg fopp g flux ia ja work = Some (ia', ja') ∧
    length rows = nc ∧ reads ia' ja' rows ∧
    ∀ u v, edge rows u v ↔ ∃ f, flows_via f (Z.of_nat v) (Z.of_nat u).
Proof.
  intros Hia Hja Hw. unfold make_upwind_graph.
  destruct (up_cells_ok nc 0 work ltac:(lia) Hw) as (w & E & Lw & Hd).
  { intros f c o [Hc _]. lia. }
  rewrite E. cbn [mbind option_bind]. rewrite (upd_Some ia) by lia. cbn [mbind option_bind].
  destruct (fill_cells_ok w nc 0 (<[0:=0]> ia) ja 0 Hd ltac:(lia)) as (ia' & ja' & E' & Hi & Hj);
    [lia|by rewrite insert_length|done| |done|done|].
  { rewrite (take_S_r _ _ 0) by (apply list_lookup_insert; lia). done. }
  exists ia', ja', (graph w). split_and!.
  - done.
  - unfold graph. by rewrite fmap_length, seq_length.
  - intros u r Hr. destruct (starts_rows 0 [] (graph w) u r eq_refl Hr) as (b & Hb & He & Hs & Hle).
    exists b. rewrite Hi. split_and!; [done|done|]. intros t Ht.
    rewrite <- (slice_lookup _ _ _ _ t Hs) by lia. simpl. rewrite <- Hj. simpl in Hle.
    rewrite lookup_take; [done|lia].
  - intros u v. unfold edge, graph. split.
    + intros (r & Hr & Hv). apply list_lookup_fmap_inv in Hr as (u' & -> & Hu). apply lookup_seq in Hu as [-> Hu].
      simpl in Hv. unfold graph_row in Hv. apply elem_of_list_omap in Hv as (f & Hf & Hinf).
      unfold row in Hf. destruct (cf !! u) as [r|] eqn:Hr; simpl in Hf; [|by apply elem_of_nil in Hf].
      exists f. by apply (inflow_iff w u r f v).
    + intros (f & Hfl).
      assert (Hbtw : face_between g f (Z.of_nat v) (Z.of_nat u) ∨ face_between g f (Z.of_nat u) (Z.of_nat v)).
      { destruct Hfl as (x & _ & [[H _]|[H _]]); eauto. }
      assert (Hu : u < nc) by (destruct Hbtw as [H|H]; apply (ok_range _ _ Hg) in H; lia).
      exists (graph_row w u). split; [rewrite list_lookup_fmap; by rewrite (lookup_seq_lt 0 nc u Hu)|].
      destruct (lookup_lt_is_Some_2 cf u) as [r Hr]; [by rewrite (ok_cells _ _ Hg)|].
      assert (Hf : f ∈ r). { apply (ok_inc _ _ Hg _ _ _ Hr). destruct Hbtw; eauto. }
      apply elem_of_list_omap. exists f. unfold row. rewrite Hr. simpl. split; [done|].
      by apply (inflow_iff w u r f v).
Qed.
End reorder.
