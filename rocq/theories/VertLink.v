(** The point numbers of finduniquepoints as input of process_vertical_faces,
    and what the faces of a plane say of pairs of cells. *)
From Coq Require Import Reals Lra Psatz.
From Verif Require Import Base LoopModel LoopProof UniqModel UniqSpec UniqProps PrepModel HorizSpec HorizProof HorizLoop HorizProps VertModel VertSpec VertGeom VertSlots VertLoop VertProc.
Unset Default Proof Using.

Section link.
Context {V : Type} (lt : V → V → Prop) (shift : V → V) (interp : list V → V → V * V).
Variables (nx ny nz : nat) (coord zcorn : list V) (actnum : list Z).
Hypothesis Hin : input_sizes nx ny nz coord zcorn actnum.
Variables (u : upoints (V := V)) (P : list (list V)).
Hypothesis HP : right_numbering lt shift interp nx ny nz coord zcorn actnum P u.
Hypothesis Hnum : (Z.of_nat (u_num u) ≤ int_max)%Z.
Notation lv i j := (lev nx nz (u_plist u) i j).

Lemma lev_number i j k v : number nx nz (u_plist u) i j k v → lv i j (k + 1) = v.
Proof. unfold number, lev. intros H. replace ((2 * nz + 2) * (i + 2 * nx * j) + (k + 1)) with ((2 * nz + 2) * (i + 2 * nx * j) + 1 + k) by lia. by rewrite H. Qed.
Lemma lev_first i j : i < 2 * nx → j < 2 * ny → lv i j 0 = int_min.
Proof using HP. intros Hi Hj. unfold lev. rewrite Nat.add_0_r, (proj1 (rn_pad _ _ _ _ _ _ _ _ _ _ _ HP i j Hi Hj)). done. Qed.
Lemma lev_last i j : i < 2 * nx → j < 2 * ny → lv i j (2 * nz + 1) = int_max.
Proof using HP. intros Hi Hj. replace (2 * nz + 1) with (2 * nz + 1) by lia. apply lev_number. exact (proj2 (rn_pad _ _ _ _ _ _ _ _ _ _ _ HP i j Hi Hj)). Qed.
(** A level is INT_MIN if no corner down to it is active, else a point. *)
Lemma lev_range i j k : i < 2 * nx → j < 2 * ny → k ≤ 2 * nz →
  (lv i j k = int_min ∧ ∀ l, l < k → ¬ active nx nz actnum i j l) ∨
  ((0 ≤ lv i j k < Z.of_nat (u_num u))%Z ∧ ∃ l, l < k ∧ active nx nz actnum i j l).
Proof using Hin HP.
  clear Hnum. intros Hi Hj. induction k as [|k IH]; intros Hk. { left. split; [by apply lev_first|]. intros; lia. }
  assert (Hc : corner nx ny nz i j k) by (split_and!; [done|done|lia]). rewrite <- Nat.add_1_r. destruct (active_dec nx ny nz coord zcorn actnum Hin i j k Hc) as [Ha|Ha].
  - right. destruct (depth_some nx ny nz coord zcorn actnum Hin i j k Hc) as [z Hz].
    destruct (rn_active _ _ _ _ _ _ _ _ _ _ _ HP i j k z Hc Ha Hz) as (L & v & n & HL & Hv & -> & (k' & z' & _ & _ & _ & ((y & Hy & _) & _)) & _). rewrite (lev_number _ _ _ _ Hv). split; [|exists k; split; [lia|done]].
    rewrite (rn_num _ _ _ _ _ _ _ _ _ _ _ HP).
    assert (length (concat (take (pillar nx i j) P)) + n < length (concat P)). { rewrite <- (take_drop_middle P _ L HL) at 2. rewrite concat_app, app_length. cbn [concat]. rewrite app_length. apply lookup_lt_Some in Hy. lia. } lia.
  - destruct (rn_inactive _ _ _ _ _ _ _ _ _ _ _ HP i j k Hc Ha) as (v & Hv & Hv'). assert (E : lv i j (k + 1) = lv i j k) by (rewrite (lev_number _ _ _ _ Hv); unfold lev; by rewrite Hv'). rewrite E.
    destruct (IH ltac:(lia)) as [[-> H]|[H (l & ? & ?)]]; [left; split; [done|]|right; split; [done|exists l; split; [lia|done]]]. intros l Hl. destruct (decide (l = k)) as [->|]; [done|]. apply H. lia.
Qed.
Lemma lev_mono i j k : i < 2 * nx → j < 2 * ny → k ≤ 2 * nz → (lv i j k ≤ lv i j (k + 1)%nat)%Z.
Proof using Hin HP Hnum.
  intros Hi Hj Hk. destruct (lev_range i j k Hi Hj Hk) as [[E _]|_].
  { rewrite E. destruct (decide (k = 2 * nz)) as [->|]; [rewrite lev_last by done; done|]. destruct (lev_range i j (k + 1) Hi Hj ltac:(lia)) as [[-> _]|[H _]]; [done|]. unfold int_min. lia. }
  assert (Hl : ∃ v w, u_plist u !! ((2 * nz + 2) * (i + 2 * nx * j) + k) = Some v ∧ number nx nz (u_plist u) i j k w).
  { assert (Hw : ∃ w, number nx nz (u_plist u) i j k w). { destruct (decide (k = 2 * nz)) as [->|]; [eexists; exact (proj2 (rn_pad _ _ _ _ _ _ _ _ _ _ _ HP i j Hi Hj))|]. destruct (number_range lt shift interp nx ny nz coord zcorn actnum u P Hin HP i j k) as (w & Hw & _); [split_and!; [done|done|lia]|by exists w]. }
    destruct Hw as [w Hw]. destruct (decide (k = 0)) as [->|]. { exists int_min, w. rewrite Nat.add_0_r. split; [exact (proj1 (rn_pad _ _ _ _ _ _ _ _ _ _ _ HP i j Hi Hj))|done]. }
    destruct (number_range lt shift interp nx ny nz coord zcorn actnum u P Hin HP i j (k - 1)) as (v & Hv & _); [split_and!; [done|done|lia]|]. exists v, w. split; [|done]. unfold number in Hv. rewrite <- Nat.add_assoc in Hv. by replace (1 + (k - 1)) with k in Hv by lia. }
  destruct Hl as (v & w & Hv & Hw). rewrite (lev_number _ _ _ _ Hw). assert (lv i j k = v) as -> by (unfold lev; by rewrite Hv).
  by eapply (C37_monotone lt shift interp nx ny nz coord zcorn actnum Hin u P HP i j k v w Hnum).
Qed.
Lemma levels_ok : columns_ok nx ny nz (u_plist u).
Proof using Hin HP Hnum.
  intros i j a b a' b' Hi Hj Ha Hb Ha' Hb'.
  assert (B : ∀ a i m, a < 2 → i < m → 2 * i + a < 2 * m) by (clear; lia).
  assert (Hact : ∀ l, active nx nz actnum (2 * i + a) (2 * j + b) l ↔ active nx nz actnum (2 * i + a') (2 * j + b') l).
  { intros l. unfold active. rewrite (half_l (2 * i + a) i), (half_l (2 * j + b) j), (half_l (2 * i + a') i), (half_l (2 * j + b') j) by lia. done. }
  assert (Hb1 : ∀ i j k, i < 2 * nx → j < 2 * ny → k < 2 * nz + 2 - 1 → (lv i j k < int_max ∧ (lv i j k = int_min ∨ 0 ≤ lv i j k))%Z).
  { clear - HP Hin Hnum. intros i j k Hi Hj Hk. destruct (lev_range i j k Hi Hj ltac:(lia)) as [[-> _]|[H _]]; [split; [done|by left]|]. split; [lia|right; lia]. }
  assert (Hmax : ∀ i j k, i < 2 * nx → j < 2 * ny → k < 2 * nz + 2 → ¬ k < 2 * nz + 2 - 1 → lv i j k = int_max). { clear - HP. intros i j k Hi Hj Hk Hk'. replace k with (2 * nz + 1) by lia. by apply lev_last. }
  split.
  - intros k Hk. apply lev_mono; [auto|auto|lia].
  - intros k Hk. apply lev_mono; [auto|auto|lia].
  - split; apply lev_first; auto.
  - replace (2 * nz + 2 - 1) with (2 * nz + 1) by lia. split; apply lev_last; auto.
  - intros k Hk. split; apply Hb1; auto.
  - intros k Hk. destruct (decide (k < 2 * nz + 2 - 1)) as [Hk'|Hk']; [|rewrite !Hmax by auto; done].
    destruct (lev_range (2 * i + a) (2 * j + b) k) as [[E1 N1]|[R1 (l1 & L1 & Y1)]]; [auto|auto|lia| |]; (destruct (lev_range (2 * i + a') (2 * j + b') k) as [[E2 N2]|[R2 (l2 & L2 & Y2)]]; [auto|auto|lia| |]).
    + by rewrite E1, E2.
    + destruct (N1 l2 L2). by apply Hact.
    + destruct (N2 l1 L1). by apply Hact.
    + clear - R1 R2. unfold int_min. lia.
  - intros k Hk Ho E. pose proof (Nat.div_mod k 2 ltac:(done)) as Hd. destruct (decide (k = 2 * nz + 1)) as [->|]; [lia|].
    destruct (lev_range (2 * i + a) (2 * j + b) k) as [[_ N1]|[R1 _]]; [auto|auto|lia| |clear - R1 E; unfold int_min in *; lia].
    destruct (lev_range (2 * i + a) (2 * j + b) (k + 1)) as [[E1 _]|[_ (l & L1 & Y1)]]; [auto|auto|lia|done|]. exfalso.
    destruct (decide (l < k)); [by apply (N1 l)|]. assert (l = k) as -> by lia.
    (* corner k and corner k - 1 belong to the same cell *)
    apply (N1 (k - 1)); [lia|]. unfold active in *. replace ((k - 1) / 2) with (k / 2); [done|]. symmetry. apply half_l. lia.
  - intros k Hk. assert (G : ∀ a b, a < 2 → b < 2 → (lv (2 * i + a) (2 * j + b) k = int_min ∨ 0 ≤ lv (2 * i + a) (2 * j + b) k)%Z); [|split; by apply G].
    intros c d Hc Hd'. destruct (decide (k < 2 * nz + 2 - 1)) as [Hk'|Hk']; [apply Hb1; auto|rewrite Hmax by auto; by right].
Qed.
End link.

(** ** Depths *)
Lemma increasing_step (f : Z → R) : (∀ p, (f p < f (p + 1)%Z)%R) → ∀ p p', (p < p')%Z → (f p < f p')%R.
Proof.
  intros Hf p p' H. replace p' with (p + Z.of_nat (S (Z.to_nat (p' - p - 1))))%Z by lia. generalize (Z.to_nat (p' - p - 1)). intros m. induction m as [|m IH]; [apply Hf|].
  eapply Rlt_trans; [apply IH|]. replace (p + Z.of_nat (S (S m)))%Z with (p + Z.of_nat (S m) + 1)%Z by lia. apply Hf.
Qed.
Lemma extend_depths (base : Z) (L : list R) : (∀ n x y, L !! n = Some x → L !! S n = Some y → (x < y)%R) →
  ∃ f : Z → R, (∀ p p', (p < p')%Z → (f p < f p')%R) ∧ ∀ n z, L !! n = Some z → f (base + Z.of_nat n)%Z = z.
Proof.
  intros HL. set (lo := default 0%R (L !! 0)). set (hi := default 0%R (L !! (length L - 1))).
  set (f := λ p, (if decide (p - base < 0)%Z then lo + IZR (p - base)%Z else if decide (p - base < Z.of_nat (length L))%Z then default 0 (L !! Z.to_nat (p - base)) else hi + IZR (p - base - Z.of_nat (length L) + 1)%Z)%R).
  exists f. split.
  - apply increasing_step. intros p. unfold f. set (k := (p - base)%Z). replace (p + 1 - base)%Z with (k + 1)%Z by (unfold k; lia). clearbody k. clear f p.
    destruct (decide (k < 0)%Z) as [H1|H1].
    + destruct (decide (k + 1 < 0)%Z) as [H2|H2]; [rewrite plus_IZR; lra|]. assert (k = -1)%Z as -> by lia. destruct (decide _) as [H3|H3].
      * change (Z.to_nat (-1 + 1)) with 0. fold lo. change (IZR (-1)) with (-1)%R. lra.
      * assert (length L = 0) by lia. unfold lo, hi. replace (length L - 1) with 0 by lia. replace (-1 + 1 - Z.of_nat (length L) + 1)%Z with 1%Z by lia. lra.
    + rewrite (decide_False (P := (k + 1 < 0)%Z)) by lia. destruct (decide (k < Z.of_nat (length L))%Z) as [H2|H2].
      * destruct (lookup_lt_is_Some_2 L (Z.to_nat k)) as [x Hx]; [lia|]. rewrite Hx. destruct (decide (k + 1 < Z.of_nat (length L))%Z) as [H3|H3].
        -- destruct (lookup_lt_is_Some_2 L (Z.to_nat (k + 1))) as [y Hy]; [lia|]. rewrite Hy. cbn. apply (HL (Z.to_nat k)); [done|]. by replace (S (Z.to_nat k)) with (Z.to_nat (k + 1)) by lia.
        -- unfold hi. replace (length L - 1) with (Z.to_nat k) by lia. rewrite Hx. cbn [default]. replace (k + 1 - Z.of_nat (length L) + 1)%Z with 1%Z by lia. cbn. lra.
      * rewrite decide_False by lia. replace (k + 1 - Z.of_nat (length L) + 1)%Z with ((k - Z.of_nat (length L) + 1) + 1)%Z by lia. rewrite (plus_IZR (k - Z.of_nat (length L) + 1) 1). lra.
  - intros n z Hz. unfold f. replace (base + Z.of_nat n - base)%Z with (Z.of_nat n) by lia. rewrite decide_False by lia. rewrite decide_True by (apply lookup_lt_Some in Hz; lia). rewrite Nat2Z.id, Hz. done.
Qed.

(** ** Pairs of cells *)
Section cells.
Variables (nx ny nz : nat) (plist : list Z) (zp : nat → Z → R) (dir : nat).
Notation n := (2 * nz + 2).
Notation acol i := (Z.of_nat i - 1 + Z.of_nat dir)%Z.
Notation brow j := (Z.of_nat j - Z.of_nat dir)%Z.
Lemma cid_inj i j k i' j' k' : i < nx → j < ny → i' < nx → j' < ny → cid nx ny i j k = cid nx ny i' j' k' → i = i' ∧ j = j' ∧ k = k'.
Proof.
  clear. unfold cid. intros Hi Hj Hi' Hj' E%Nat2Z.inj. assert (E1 : j + ny * k = j' + ny * k') by nia. assert (i = i') by nia. assert (k = k') by nia. subst. split; [done|]. split; [lia|done].
Qed.
Lemma cid_nonneg i j k : (cid nx ny i j k ≠ -1)%Z. Proof. unfold cid. lia. Qed.
Lemma side_cid i j s ci cj k : ci < nx → cj < ny → side nx ny i j s (cid nx ny ci cj k) → i = Z.of_nat ci ∧ j = Z.of_nat cj ∧ s = 2 * k + 1.
Proof.
  intros Hi Hj [([H1 H2] & k' & -> & E)|[_ E]]; [|by apply cid_nonneg in E]. apply cid_inj in E as (-> & -> & ->); [|lia..]. split; [lia|]. split; [lia|done].
Qed.

Variables (i j base : nat) (F : list face) (I : list (Z * Z * Z * Z)).
Hypothesis HR : right_plane nx ny nz plist zp dir i j base F I.
Variables (ai aj k k' : nat).
Hypothesis Hai : Z.of_nat ai = acol i.
Hypothesis Haj : Z.of_nat aj = brow j.
Hypothesis HinA : ai < nx ∧ aj < ny ∧ k < nz.
Hypothesis HinB : i < nx ∧ j < ny ∧ k' < nz.
Notation between := (λ x, fc_a x = cid nx ny ai aj k ∧ fc_b x = cid nx ny i j k').
Lemma filter_one {A} (Q : A → Prop) `{!∀ x, Decision (Q x)} (l : list A) u x : l !! u = Some x → Q x → (∀ v y, l !! v = Some y → Q y → v = u) → filter Q l = [x].
Proof.
  intros Hu HQ Hone. rewrite <- (take_drop_middle l u x Hu), filter_app, filter_cons_True by done. rewrite !filter_none; [done| |].
  - intros y [v Hv]%elem_of_list_lookup Hy. rewrite lookup_drop in Hv. specialize (Hone _ _ Hv Hy). lia.
  - intros y [v Hv]%elem_of_list_lookup Hy. apply lookup_take_Some in Hv as [Hv Hlt]. specialize (Hone _ _ Hv Hy). lia.
Qed.
Lemma plane_pair :
  (overlap (zp (pillar1 nx dir i j)) (zp (pillar2 nx dir i j)) (meeting nx ny nz plist dir i j) (2 * k + 1) (2 * k' + 1) →
    ∃ x vs, filter between F = [x] ∧ polygon (zp (pillar1 nx dir i j)) (zp (pillar2 nx dir i j)) (meeting nx ny nz plist dir i j) (2 * k + 1) (2 * k' + 1) vs ∧
      Forall2 (numbered_as base I) vs (fc_nodes x)) ∧
  (¬ overlap (zp (pillar1 nx dir i j)) (zp (pillar2 nx dir i j)) (meeting nx ny nz plist dir i j) (2 * k + 1) (2 * k' + 1) → filter between F = []).
Proof using HR Hai Haj HinA HinB.
  destruct HR as (K & [C1 C2 C3 C4 C5]). destruct HinA as (A1' & A2' & A3'), HinB as (B1' & B2' & B3').
  assert (Hat : ∀ u x, F !! u = Some x → between x → K !! u = Some (2 * k + 1, 2 * k' + 1)).
  { intros u x Hx [Ea Eb]. destruct (Forall2_lookup_r _ _ _ _ _ C3 Hx) as ([a b] & Hk & Ha & Hb & _). rewrite Ea in Ha. rewrite Eb in Hb. apply side_cid in Ha as (_ & _ & ->); [|done..]. apply side_cid in Hb as (_ & _ & ->); done. }
  assert (Hone : ∀ u v x y, F !! u = Some x → F !! v = Some y → between x → between y → v = u).
  { intros u v x y Hu Hv Hx Hy. pose proof (Hat _ _ Hu Hx) as K1. pose proof (Hat _ _ Hv Hy) as K2. destruct (Nat.lt_trichotomy u v) as [Hlt|[->|Hlt]]; [|done|]; exfalso.
    - pose proof (C2 _ _ _ _ _ _ Hlt K1 K2). lia.
    - pose proof (C2 _ _ _ _ _ _ Hlt K2 K1). lia. }
  split.
  - intros Ho. assert (Hk : (2 * k + 1, 2 * k' + 1) ∈ K). { apply C1. split; [lia|]. split; [lia|]. split; [|done]. left. rewrite Nat.add_comm, Nat.mul_comm, Nat.mod_add by done. done. }
    apply elem_of_list_lookup in Hk as [u Hu]. destruct (Forall2_lookup_l _ _ _ _ _ C3 Hu) as (x & Hx & Ha & Hb & vs & Hp & Hn). exists x, vs. split; [|done].
    assert (Hbx : between x).
    { split.
      - destruct Ha as [(_ & k1 & E & Hc)|[[Hout|(k1 & E)] _]]; [|exfalso; lia|exfalso; lia]. replace k with k1 by lia. rewrite Hc. f_equal; lia.
      - destruct Hb as [(_ & k1 & E & Hc)|[[Hout|(k1 & E)] _]]; [|exfalso; lia|exfalso; lia]. replace k' with k1 by lia. rewrite Hc. f_equal; lia. }
    apply (filter_one _ F u x Hx Hbx). intros v y Hv Hy. by eapply Hone.
  - intros Hno. apply filter_none. intros x [u Hx]%elem_of_list_lookup Hb. apply Hno. specialize (Hat _ _ Hx Hb). apply elem_of_list_lookup_2 in Hat. by apply C1 in Hat as (_ & _ & _ & ?).
Qed.
(** No other plane has such faces. *)
Lemma other_plane i2 j2 base2 F2 I2 : right_plane nx ny nz plist zp dir i2 j2 base2 F2 I2 → (i2, j2) ≠ (i, j) → filter between F2 = [].
Proof using HinB.
  clear HR HinA Hai Haj. intros (K & [C1 C2 C3 C4 C5]) Hne. apply filter_none. intros x [u Hx]%elem_of_list_lookup [_ Eb]. destruct (Forall2_lookup_r _ _ _ _ _ C3 Hx) as ([a b] & Hk & _ & Hb & _). rewrite Eb in Hb. destruct HinB as (? & ? & _). apply side_cid in Hb as (? & ? & _); [|done..]. apply Hne. f_equal; lia.
Qed.
End cells.

(** The cells on both sides of a face are live. *)
Section alive.
Variables (nx ny nz : nat) (plist : list Z) (zp : nat → Z → R) (dir : nat).
Hypothesis Hlen : length plist = (2 * nz + 2) * (2 * nx * (2 * ny)).
Lemma lev_num i j k : i < 2 * nx → j < 2 * ny → k ≤ 2 * nz → number nx nz plist i j k (lev nx nz plist i j (k + 1)).
Proof using Hlen. intros Hi Hj Hk. unfold number. rewrite <- Nat.add_assoc, (Nat.add_comm 1 k). apply (lev_at nx ny nz plist Hlen); [done|done|lia]. Qed.
Lemma differ_live i j k a b : i < nx → j < ny → k < nz → a < 2 → b < 2 → lev nx nz plist (2 * i + a) (2 * j + b) (2 * k + 1) ≠ lev nx nz plist (2 * i + a) (2 * j + b) (2 * k + 1 + 1) → live nx ny nz plist i j k.
Proof using Hlen.
  intros Hi Hj Hk Ha Hb Hne. split; [done|]. set (q l := [lev nx nz plist (2 * i) (2 * j) (l + 1); lev nx nz plist (2 * i + 1) (2 * j) (l + 1); lev nx nz plist (2 * i + 1) (2 * j + 1) (l + 1); lev nx nz plist (2 * i) (2 * j + 1) (l + 1)]).
  exists (q (2 * k)), (q (2 * k + 1)). assert (Hq : ∀ l, l ≤ 2 * nz → quad nx nz plist i j l (q l)). { intros l Hl. unfold quad, q. eexists _, _, _, _. split_and!; [apply lev_num; lia..|done]. }
  split; [apply Hq; lia|]. split; [apply Hq; lia|]. intros E. unfold q in E. injection E as E1 E2 E3 E4. apply Hne. destruct a as [|[|]], b as [|[|]]; try lia; rewrite ?Nat.add_0_r; done.
Qed.
Lemma plane_live i j base F I : dir < 2 → i < nx + (1 - dir) → j < ny + dir → right_plane nx ny nz plist zp dir i j base F I → ∀ x, x ∈ F →
  (fc_a x = (-1)%Z ∨ ∃ i j k, live nx ny nz plist i j k ∧ fc_a x = cid nx ny i j k) ∧ (fc_b x = (-1)%Z ∨ ∃ i j k, live nx ny nz plist i j k ∧ fc_b x = cid nx ny i j k).
Proof using Hlen.
  intros Hd Hi Hj (K & [C1 C2 C3 C4 C5]) x [u Hx]%elem_of_list_lookup. destruct (Forall2_lookup_r _ _ _ _ _ C3 Hx) as ([s s'] & Hk & Ha & Hb & _). apply elem_of_list_lookup_2, C1 in Hk as (Hs & Hs' & _ & (t & z & Ht & L1 & L2 & L3 & L4)).
  assert (Hline : ∀ z1 z2 p q p' q', (line z1 z2 p q t < z)%R → (z < line z1 z2 p' q' t)%R → p ≠ p' ∨ q ≠ q').
  { intros z1 z2 p q p' q' H1 H2. destruct (decide (p = p')) as [->|]; [|by left]. right. intros ->. lra. }
  pose proof (Hline _ _ _ _ _ _ L1 L3) as DA. pose proof (Hline _ _ _ _ _ _ L2 L4) as DB. clear L1 L2 L3 L4 Hline C1 C2 C3 C4 C5. unfold meeting in DA, DB.
  split.
  - destruct Ha as [([G1 G2] & k & -> & E)|[_ E]]; [right|by left]. exists (Z.to_nat (Z.of_nat i - 1 + Z.of_nat dir)), (Z.to_nat (Z.of_nat j - Z.of_nat dir)), k. split; [|done].
    destruct (decide (dir = 0)) as [->|Hd1]; cbn [A1 A2] in DA.
    + set (c := Z.to_nat _). replace (Z.to_nat (Z.of_nat j - Z.of_nat 0)) with j by lia. replace (2 * i - 1) with (2 * c + 1) in DA by lia. destruct DA as [DA|DA]; [rewrite <- (Nat.add_0_r (2 * j)) in DA|]; eapply differ_live; try exact DA; lia.
    + assert (dir = 1) as -> by lia. set (c := Z.to_nat (_ - Z.of_nat 1)). replace (Z.to_nat (Z.of_nat i - 1 + Z.of_nat 1)) with i by lia. replace (2 * j - 1) with (2 * c + 1) in DA by lia. destruct DA as [DA|DA]; [|rewrite <- (Nat.add_0_r (2 * i)) in DA]; eapply differ_live; try exact DA; lia.
  - destruct Hb as [([G1 G2] & k & -> & E)|[_ E]]; [right|by left]. exists i, j, k. split; [|by rewrite !Nat2Z.id in E].
    destruct (decide (dir = 0)) as [->|Hd1]; cbn [B1 B2] in DB.
    + rewrite Nat.min_l in DB by lia. rewrite <- (Nat.add_0_r (2 * i)) in DB. destruct DB as [DB|DB]; [rewrite <- (Nat.add_0_r (2 * j)) in DB|]; eapply differ_live; try exact DB; lia.
    + rewrite Nat.min_l in DB by lia. rewrite <- (Nat.add_0_r (2 * j)) in DB. destruct DB as [DB|DB]; [|rewrite <- (Nat.add_0_r (2 * i)) in DB]; eapply differ_live; try exact DB; lia.
Qed.
End alive.
