(** Tables of live oil and live gas made from a deck (C66). *)
From Coq Require Import Reals Lra Psatz.
From Verif Require Import Base LoopModel LoopProof TableModel TofSpec MiscSpec UTableProof NTableProof NTableProps PhaseModel PvtModel PvtMakeModel PvtSpec PvtMakeSpec PvtProof PvtProps PvtGas PvtMakeProof.
Local Open Scope R_scope.
Unset Default Proof Using.

Lemma column_ok recs k : (∀ r, r ∈ recs → (k < length r)%nat) → column recs k false = Some (firsts recs k).
Proof. intros H. unfold column, firsts. apply mapM_map. intros r Hr. by rewrite (val_some r k) by auto. Qed.
Lemma column_inv_ok recs k : (∀ r, r ∈ recs → (k < length r)%nat ∧ val r k ≠ 0) → column recs k true = Some (firsts_inv recs k).
Proof. intros H. unfold column, firsts_inv. apply mapM_map. intros r Hr. destruct (H r Hr) as [H1 H2]. rewrite (val_some r k) by auto. cbn [mbind option_bind]. by rewrite rdiv_Some. Qed.
Lemma und_table_ok inv r m : rows r m → (inv = true → ∀ j, (j < m)%nat → val r (3 * j + 2) ≠ 0) → und_table inv r = Some (table_of inv r m).
Proof.
  intros Hr Hn. unfold rows in Hr. unfold und_table. replace ((length r - 1) / 3)%nat with m by (replace (length r - 1)%nat with (m * 3)%nat by lia; by rewrite Nat.div_mul).
  rewrite (mapM_map (λ j, r !! (3 * j + 1)%nat) (λ j, val r (3 * j + 1))). 2:{ intros j Hj%elem_of_seq. apply val_some. lia. } cbn [mbind option_bind].
  rewrite (mapM_map (λ j, x ← r !! (3 * j + 2)%nat; if (inv : bool) then rdiv 1 x else Some x) (λ j, if inv then 1 / val r (3 * j + 2) else val r (3 * j + 2))). 2:{ intros j Hj%elem_of_seq. rewrite (val_some r (3 * j + 2)) by lia. cbn [mbind option_bind]. destruct inv; [|done]. apply rdiv_Some. apply Hn; [done|lia]. } cbn [mbind option_bind].
  rewrite (mapM_map (λ j, r !! (3 * j + 3)%nat) (λ j, val r (3 * j + 3))). 2:{ intros j Hj%elem_of_seq. apply val_some. lia. } done.
Qed.
Lemma seq_col (f : nat → R) m j : (j < m)%nat → map f (seq 0 m) !! j = Some (f j).
Proof. intros H. rewrite list_lookup_fmap, lookup_seq_lt by done. done. Qed.
Lemma col_ordered σ (f : nat → R) m : (σ = 1 ∨ σ = -1) → (∀ j k, (j < k < m)%nat → σ * f j < σ * f k) → ordered σ (map f (seq 0 m)).
Proof.
  intros Hs H. split; [done|]. intros i j a b Hij Ha Hb. pose proof (lookup_lt_Some _ _ _ Hb) as Hj. rewrite map_length, seq_length in Hj. rewrite seq_col in Ha, Hb by lia. injection Ha as <-. injection Hb as <-. apply H. lia.
Qed.
Lemma table_of_good σ inv r m : (2 ≤ m)%nat → (σ = 1 ∨ σ = -1) → (∀ j k, (j < k < m)%nat → σ * val r (3 * j + 1) < σ * val r (3 * k + 1)) → good_table (table_of inv r m).
Proof. intros Hm Hs H. eexists _, _, _, σ. split; [reflexivity|]. rewrite !map_length, seq_length. split; [lia|]. split; [done|]. split; [done|]. by apply col_ordered. Qed.

(** C66: the tables of live gas: pressure, B, viscosity and Rv of the first rows, and the
    rows of each record; they meet what C65 asks for. *)
Theorem C66_gas recs : good_pvtg recs → ∃ G, gas_make [recs] = Some G ∧ live_tables G (firsts recs 0) (firsts recs 2) (firsts recs 3) (firsts recs 1) ∧
  ∀ k r m, recs !! k = Some r → rows r m → lv_und G !! k = Some (table_of false r m).
Proof.
  intros [Hl Hr Hi]. unfold gas_make.
  assert (HC : ∀ k, (k < 4)%nat → column recs k false = Some (firsts recs k)). { intros k Hk. apply column_ok. intros r Hx. destruct (Hr r Hx) as (m & Hm & Hrow & _). unfold rows in Hrow. lia. }
  rewrite !HC by lia. cbn [mbind option_bind].
  rewrite (mapM_map _ (λ r, table_of false r ((length r - 1) / 3))).
  2:{ intros r Hx. destruct (Hr r Hx) as (m & Hm & Hrow & _). pose proof Hrow as Hrow'. unfold rows in Hrow'. replace ((length r - 1) / 3)%nat with m by (replace (length r - 1)%nat with (m * 3)%nat by lia; by rewrite Nat.div_mul). by apply und_table_ok. }
  cbn [mbind option_bind]. eexists. split; [reflexivity|]. split.
  - split; [done| | |].
    + unfold firsts. rewrite !map_length. lia.
    + split; [by left|]. intros i j a b Hij Ha Hb. unfold firsts in Ha, Hb. rewrite list_lookup_fmap in Ha, Hb. apply fmap_Some in Ha as (ra & Ea & ->). apply fmap_Some in Hb as (rb & Eb & ->). pose proof (Hi i j ra rb Hij Ea Eb). lra.
    + cbn [lv_und]. unfold firsts. rewrite !map_length. split; [done|]. apply Forall_forall. intros t Ht. apply elem_of_list_fmap in Ht as (r & -> & Hx). destruct (Hr r Hx) as (m & Hm & Hrow & Ho). unfold rows in Hrow. replace ((length r - 1) / 3)%nat with m by (replace (length r - 1)%nat with (m * 3)%nat by lia; by rewrite Nat.div_mul).
      apply (table_of_good (-1)); [done|by right|]. intros j k Hjk. specialize (Ho j k Hjk). lra.
  - cbn [lv_und]. intros k r m Hk Hrow. rewrite list_lookup_fmap, Hk. cbn [fmap option_fmap option_map]. unfold rows in Hrow. replace ((length r - 1) / 3)%nat with m by (replace (length r - 1)%nat with (m * 3)%nat by lia; by rewrite Nat.div_mul). done.
Qed.
Print Assumptions C66_gas.

(** ** Live oil *)
Section oil.
Variable recs : list (list R).
Hypothesis good : good_pvto recs.
Let sz (r : list R) : nat := ((length r - 1) / 3)%nat.
Let und0 : list (list (list R)) := map (λ r, table_of true r (sz r)) recs.
Let rs : list R := firsts recs 0.

Lemma rec_info k r : recs !! k = Some r → (1 ≤ sz r)%nat ∧ rows r (sz r) ∧ (∀ j, (j < sz r)%nat → val r (3 * j + 2) ≠ 0) ∧ ordered 1 (map (λ j, val r (3 * j + 1)) (seq 0 (sz r))).
Proof.
  intros Hk. destruct (po_rec recs good r) as (m & Hm & Hrow & Hn & Ho); [by eapply elem_of_list_lookup_2|]. assert (sz r = m) as ->. { unfold rows in Hrow. unfold sz. replace (length r - 1)%nat with (m * 3)%nat by lia. by rewrite Nat.div_mul. }
  split; [done|]. split; [done|]. split; [done|]. apply col_ordered; [by left|]. intros j k' Hjk. specialize (Ho j k' Hjk). lra.
Qed.
Lemma last_big r : recs !! (length recs - 1)%nat = Some r → (2 ≤ sz r)%nat.
Proof.
  intros Hr. assert (HL : last recs = Some r) by (rewrite last_lookup; rewrite <- Hr; f_equal; lia). pose proof (po_last recs good r HL) as H7. destruct (rec_info _ r Hr) as (_ & Hrow & _). unfold rows in Hrow. lia.
Qed.
(** Tables of which those from [i] on are as read. *)
Definition same_from (i : nat) (und : list (list (list R))) : Prop := length und = length recs ∧ ∀ k, (i ≤ k)%nat → und !! k = und0 !! k.
Lemma und0_at k r : recs !! k = Some r → und0 !! k = Some (table_of true r (sz r)).
Proof. intros H. unfold und0. rewrite list_lookup_fmap, H. done. Qed.
Lemma und_size_at i und k r : same_from i und → (i ≤ k)%nat → recs !! k = Some r → und_size und k = Some (sz r).
Proof. intros [_ H] Hk Hr. unfold und_size. rewrite H by done. rewrite (und0_at k r Hr). cbn. by rewrite map_length, seq_length. Qed.
Definition big (k : nat) : Prop := ∃ r, recs !! k = Some r ∧ (2 ≤ sz r)%nat.
Lemma find_next_ok i und : same_from i und → ∀ fuel k, (i ≤ k)%nat → (k < length recs)%nat → (length recs ≤ k + fuel)%nat → ∃ j r, find_next fuel und k = Some j ∧ (k ≤ j)%nat ∧ recs !! j = Some r ∧ (2 ≤ sz r)%nat ∧ ∀ q, (k ≤ q < j)%nat → ¬ big q.
Proof.
  intros HS. induction fuel as [|fuel IH]; intros k Hik Hk Hf; [lia|]. cbn [find_next]. destruct (lookup_lt_is_Some_2 recs k Hk) as [r Hr]. rewrite (und_size_at i und k r HS Hik Hr). cbn [mbind option_bind]. case_decide as Hs.
  - destruct (decide (k = length recs - 1)%nat) as [->|Hne]; [pose proof (last_big r Hr); lia|]. destruct (IH (S k)) as (j & r' & E & Hj & H1 & H2 & H3); [lia|lia|lia|]. exists j, r'. split; [done|]. split; [lia|]. split; [done|]. split; [done|]. intros q Hq. destruct (decide (q = k)) as [->|]; [|apply H3; lia]. intros (r2 & E2 & H'). rewrite Hr in E2. injection E2 as <-. lia.
  - exists k, r. split; [done|]. split; [done|]. split; [done|]. split; [lia|]. intros; lia.
Qed.
(** What the rows added to record [k] are to be. *)
Definition added (k : nat) (r : list R) (d0 d1 d2 : list R) : Prop :=
  ∃ n rn, (k < n)%nat ∧ recs !! n = Some rn ∧ (2 ≤ sz rn)%nat ∧ (∀ q, (k < q < n)%nat → ¬ big q) ∧
    ((∀ q, (q < k)%nat → ¬ big q) ∧ sloped (segment (table_of true rn (sz rn))) (val r 1) (1 / val r 2) (val r 3) d0 d1 d2 ∨
     ∃ q rq, (q < k)%nat ∧ recs !! q = Some rq ∧ (2 ≤ sz rq)%nat ∧
       sloped (between (table_of true rq (sz rq)) (table_of true rn (sz rn)) ((val r 0 - val rq 0) / (val rn 0 - val rq 0))) (val r 1) (1 / val r 2) (val r 3) d0 d1 d2).
(** What the table of record [k] is to be. *)
Definition final (k : nat) (r : list R) (t : list (list R)) : Prop :=
  good_table t ∧ ((2 ≤ sz r)%nat → t = table_of true r (sz r)) ∧
  ∃ d0 d1 d2, t = [map (λ j, val r (3 * j + 1)) (seq 0 (sz r)) ++ d0; map (λ j, 1 / val r (3 * j + 2)) (seq 0 (sz r)) ++ d1; map (λ j, val r (3 * j + 3)) (seq 0 (sz r)) ++ d2] ∧ ordered 1 (map (λ j, val r (3 * j + 1)) (seq 0 (sz r)) ++ d0) ∧
    (sz r = 1%nat → added k r d0 d1 d2).
Lemma lastp_col r m : (1 ≤ m)%nat → lastp (map (λ j, val r (3 * j + 1)) (seq 0 m)) = val r (3 * (m - 1) + 1).
Proof. intros H. unfold lastp. rewrite map_length, seq_length. unfold val at 1. by rewrite seq_col by lia. Qed.
Lemma fill_ok fuel i und iprev inext : (∀ r, r ∈ recs → 2 * length r + 2 ≤ fuel)%nat → same_from i und → (i < length recs)%nat →
  (∀ k r, (k < i)%nat → recs !! k = Some r → ∃ t, und !! k = Some t ∧ final k r t) → (∀ k, iprev = Some k → (k < i)%nat ∧ big k) → (iprev = None → ∀ q, (q < i)%nat → ¬ big q) → big inext → (∀ q, (i ≤ q < inext)%nat → (1 ≤ q)%nat → ¬ big q) →
  ∃ und' iprev' inext', fill_record fuel rs i (und, iprev, inext) = Some (und', iprev', inext') ∧ same_from (i + 1) und' ∧
    (∀ k r, (k < i + 1)%nat → recs !! k = Some r → ∃ t, und' !! k = Some t ∧ final k r t) ∧ (∀ k, iprev' = Some k → (k < i + 1)%nat ∧ big k) ∧ (iprev' = None → ∀ q, (q < i + 1)%nat → ¬ big q) ∧ big inext' ∧ (∀ q, (i + 1 ≤ q < inext')%nat → (1 ≤ q)%nat → ¬ big q).
Proof.
  intros Hfuel HS Hi Hdone Hprev Hnone Hnext Hnear. destruct (lookup_lt_is_Some_2 recs i Hi) as [r Hr]. destruct (rec_info i r Hr) as (Hsz & Hrow & Hnz & Ho). pose proof HS as [HSl HSk].
  unfold fill_record. rewrite (und_size_at i und i r HS ltac:(lia) Hr). cbn [mbind option_bind]. case_decide as Hbig.
  - eexists und, (Some i), inext. split; [done|]. split; [split; [done|]; intros k Hk; apply HSk; lia|]. split; [|split; [intros k [= <-]; split; [lia|]; exists r; split; [done|lia]|split; [done|split; [done|intros q Hq Hq1; apply Hnear; lia]]]].
    intros k r' Hk Hr'. destruct (decide (k = i)) as [->|]; [|apply Hdone; [lia|done]]. rewrite Hr in Hr'. injection Hr' as <-. exists (table_of true r (sz r)). split; [rewrite HSk by lia; by apply und0_at|]. split; [|split; [done|]].
    + eexists _, _, _, 1. split; [reflexivity|]. rewrite !map_length, seq_length. split; [lia|]. split; [done|]. split; [done|exact Ho].
    + exists [], [], []. rewrite !app_nil_r. split; [done|]. split; [exact Ho|]. intros; lia.
  - assert (Hone : sz r = 1%nat) by lia.
    assert (HN : ∃ iprev' inext', (if decide (inext < i)%nat then k ← find_next (length und) und (i + 1); Some (Some inext, k) else Some (iprev, inext)) = Some (iprev', inext') ∧ (∀ k, iprev' = Some k → (k < i)%nat ∧ big k) ∧ (iprev' = None → ∀ q, (q < i)%nat → ¬ big q) ∧ (∀ q, (i < q < inext')%nat → ¬ big q) ∧ (i < inext')%nat ∧ big inext').
    { case_decide as Hlt.
      - assert (i ≠ (length recs - 1)%nat). { intros ->. pose proof (last_big r Hr). lia. } destruct (find_next_ok i und HS (length und) (i + 1)) as (j & rj & -> & Hj & Hrj & Hbj & Hnj); [lia|lia|lia|]. exists (Some inext), j. split; [done|]. split; [by intros k [= <-]|]. split; [done|]. split; [intros q Hq; apply Hnj; lia|]. split; [lia|]. by exists rj.
      - exists iprev, inext. split; [done|]. split; [done|]. split; [done|]. split; [intros q Hq; apply Hnear; lia|]. split; [|done]. destruct Hnext as (rn & Hrn & Hbn). destruct (decide (inext = i)) as [->|]; [|lia]. rewrite Hr in Hrn. injection Hrn as <-. lia. }
    destruct HN as (ip & inx & -> & Hip & Hipn & Hnx & Hgt & (rn & Hrn & Hbn)). cbn [mbind option_bind].
    destruct (rec_info inx rn Hrn) as (_ & Hrown & _ & Hon).
    assert (HRS : ∀ k r, recs !! k = Some r → rs !! k = Some (val r 0)). { intros k r' Hk. unfold rs, firsts. rewrite list_lookup_fmap, Hk. done. }
    assert (HW : ∃ prev w pps, (match ip with Some k => t ← und !! k; Some (Some t) | None => Some None end) = Some prev ∧
      (match ip with Some k => ri ← rs !! i; rp ← rs !! k; rn ← rs !! inx; w ← rdiv (ri - rp) (rn - rp); Some (Some w) | None => Some None end) = Some w ∧ (is_Some prev → is_Some w) ∧ (cnt pps (val r 1) ≤ (fuel - 2) / 2)%nat ∧
      (∀ t, prev = Some t → bool_decide (is_Some ip) = true) ∧ (prev = None ∧ ip = None ∨ ∃ q rq, (q < i)%nat ∧ recs !! q = Some rq ∧ (2 ≤ sz rq)%nat ∧ prev = Some (table_of true rq (sz rq)) ∧ w = Some ((val r 0 - val rq 0) / (val rn 0 - val rq 0))) ∧
      (bool_decide (is_Some ip) = true → ∃ bs vs, prev = Some [pps; bs; vs] ∧ ordered 1 pps ∧ (2 ≤ length pps)%nat ∧ length bs = length pps ∧ length vs = length pps)).
    { destruct ip as [k|]; [|exists None, None, []; split; [done|]; split; [done|]; split; [by intros [? ?]|]; split; [cbn; lia|]; split; [done|]; split; [by left|]; intros H; apply bool_decide_eq_true in H as [? ?]; done].
      destruct (Hip k eq_refl) as [Hki (rk & Hrk & Hbk)]. destruct (Hdone k rk Hki Hrk) as (t & Ht & _ & Heq & _). rewrite (Heq Hbk) in Ht. destruct (rec_info k rk Hrk) as (_ & Hrowk & _ & Hok).
      rewrite Ht. cbn [mbind option_bind]. rewrite (HRS i r Hr), (HRS k rk Hrk), (HRS inx rn Hrn). cbn [mbind option_bind]. destruct (po_inc recs good k inx rk rn ltac:(lia) Hrk Hrn) as [_ Hrs]. rewrite rdiv_Some by lra. cbn [mbind option_bind].
      eexists _, _, (map (λ j, val rk (3 * j + 1)) (seq 0 (sz rk))). split; [reflexivity|]. split; [reflexivity|]. split; [eauto|]. split.
      - pose proof (cnt_le (map (λ j, val rk (3 * j + 1)) (seq 0 (sz rk))) (val r 1)) as HC. rewrite map_length, seq_length in HC. pose proof (Hfuel rk ltac:(by eapply elem_of_list_lookup_2)). unfold rows in Hrowk. apply Nat.div_le_lower_bound; lia.
      - split; [intros; apply bool_decide_eq_true; eauto|]. split; [right; exists k, rk; done|]. intros _. eexists _, _. split; [reflexivity|]. rewrite !map_length, seq_length. split; [exact Hok|]. done. }
    destruct HW as (prev & w & pps & -> & EW & Hpw & Hcp & Hpt & Hcase & Hpp). cbn [mbind option_bind]. rewrite (HSk inx) by lia. rewrite (und0_at inx rn Hrn). cbn [mbind option_bind]. rewrite EW. cbn [mbind option_bind]. rewrite (HSk i) by lia. rewrite (und0_at i r Hr). cbn [mbind option_bind].
    destruct (po_inc recs good i inx r rn ltac:(lia) Hr Hrn) as [Hpinc _].
    destruct (extend_ok prev pps (map (λ j, val rn (3 * j + 1)) (seq 0 (sz rn))) (map (λ j, 1 / val rn (3 * j + 2)) (seq 0 (sz rn))) (map (λ j, val rn (3 * j + 3)) (seq 0 (sz rn))) w Hon ltac:(rewrite map_length, seq_length; done) ltac:(by rewrite !map_length) ltac:(by rewrite !map_length) Hpw
       fuel (map (λ j, val r (3 * j + 1)) (seq 0 (sz r))) (map (λ j, 1 / val r (3 * j + 2)) (seq 0 (sz r))) (map (λ j, val r (3 * j + 3)) (seq 0 (sz r))) (bool_decide (is_Some ip)) true (0, 0) (0, 0) (λ t Ht, or_introl (Hpt t Ht)) (or_introl eq_refl) Hpp) as (d0 & d1 & d2 & E & D1 & D2 & D3 & D4 & D5).
    + rewrite map_length, seq_length. lia.
    + by rewrite !map_length.
    + by rewrite !map_length.
    + exact Ho.
    + left. split; [done|]. rewrite !lastp_col by lia. rewrite Hone. change (3 * (1 - 1) + 1)%nat with 1%nat.
      assert (val rn 1 < val rn (3 * (sz rn - 1) + 1)); [|lra]. pose proof (proj2 Hon 0%nat (sz rn - 1)%nat _ _ ltac:(lia) (seq_col (λ j, val rn (3 * j + 1)) (sz rn) 0 ltac:(lia)) (seq_col (λ j, val rn (3 * j + 1)) (sz rn) (sz rn - 1)%nat ltac:(lia))) as H. cbv beta in H. change (3 * 0 + 1)%nat with 1%nat in H. lra.
    + unfold meas. rewrite lastp_col by lia. rewrite Hone. change (3 * (1 - 1) + 1)%nat with 1%nat.
      pose proof (cnt_le (map (λ j, val rn (3 * j + 1)) (seq 0 (sz rn))) (val r 1)) as HC. rewrite map_length, seq_length in HC. pose proof (Hfuel rn ltac:(by eapply elem_of_list_lookup_2)). unfold rows in Hrown.
      assert (((fuel - 2) / 2 * 2 ≤ fuel - 2)%nat) by (pose proof (Nat.div_mod (fuel - 2) 2); lia). destruct (bool_decide _); lia.
    + change (table_of true rn (sz rn)) with [map (λ j, val rn (3 * j + 1)) (seq 0 (sz rn)); map (λ j, 1 / val rn (3 * j + 2)) (seq 0 (sz rn)); map (λ j, val rn (3 * j + 3)) (seq 0 (sz rn))].
      change (table_of true r (sz r)) with [map (λ j, val r (3 * j + 1)) (seq 0 (sz r)); map (λ j, 1 / val r (3 * j + 2)) (seq 0 (sz r)); map (λ j, val r (3 * j + 3)) (seq 0 (sz r))]. rewrite E. cbn [mbind option_bind]. rewrite upd_Some by lia. cbn [mbind option_bind].
      eexists _, ip, inx. split; [reflexivity|]. split; [split; [by rewrite insert_length|]; intros k Hk; rewrite list_lookup_insert_ne by lia; apply HSk; lia|]. split; [|split; [intros k Hk; destruct (Hip k Hk); split; [lia|done]|split; [|split; [by exists rn|intros q Hq _; apply Hnx; lia]]]].
      2:{ intros E0 q Hq. destruct (decide (q = i)) as [->|]; [intros (r2 & E2 & H2); rewrite Hr in E2; injection E2 as <-; lia|]. apply Hipn; [done|lia]. }
      intros k r' Hk Hr'. destruct (decide (k = i)) as [->|]; [|rewrite list_lookup_insert_ne by done; apply Hdone; [lia|done]]. rewrite Hr in Hr'. injection Hr' as <-. rewrite list_lookup_insert by lia. eexists. split; [reflexivity|]. split; [|split; [lia|]].
      * eexists _, _, _, 1. split; [reflexivity|]. rewrite !app_length, !map_length, seq_length. specialize (D4 eq_refl). split; [lia|]. split; [lia|]. split; [lia|exact D3].
      * exists d0, d1, d2. split; [done|]. split; [exact D3|]. intros _. exists inx, rn. split; [lia|]. split; [done|]. split; [done|]. split; [exact Hnx|].
        assert (EL : lastp (map (λ j, val r (3 * j + 1)) (seq 0 (sz r))) = val r 1 ∧ lastp (map (λ j, 1 / val r (3 * j + 2)) (seq 0 (sz r))) = 1 / val r 2 ∧ lastp (map (λ j, val r (3 * j + 3)) (seq 0 (sz r))) = val r 3) by (rewrite Hone; done).
        destruct EL as (E1 & E2 & E3). rewrite E1, E2, E3 in D5. destruct Hcase as [[-> ->]|(q & rq & Hq & Hrq & Hbq & -> & ->)]; [left; split; [by apply Hipn|exact D5]|right]. exists q, rq. split; [done|]. split; [done|]. split; [done|].
        revert D5. generalize (val r 1), (1 / val r 2), (val r 3). clear. revert d1 d2. induction d0 as [|x d0 IH]; intros [|y d1] [|z d2]; intros p b v H; try done. destruct H as [(s & (w0 & [= <-] & Hs) & H1 & H2) H]. split; [exists s; done|]. by apply IH.
Qed.
Lemma oil_make_ok fuel : (∀ r, r ∈ recs → 2 * length r + 2 ≤ fuel)%nat → ∃ und, oil_make fuel [recs] = Some (Live [firsts recs 1; firsts_inv recs 2; firsts recs 3; rs] und) ∧ length und = length recs ∧ ∀ k r, recs !! k = Some r → ∃ t, und !! k = Some t ∧ final k r t.
Proof.
  intros Hfuel. pose proof (po_len recs good) as Hlen. unfold oil_make.
  assert (HL : ∀ r, r ∈ recs → (4 ≤ length r)%nat ∧ val r 2 ≠ 0). { intros r Hx. destruct (elem_of_list_lookup_1 _ _ Hx) as [k Hk]. destruct (rec_info k r Hk) as (H1 & H2 & H3 & _). unfold rows in H2. split; [lia|]. apply (H3 0%nat). lia. }
  rewrite (column_ok recs 1), (column_inv_ok recs 2), (column_ok recs 3), (column_ok recs 0); try (intros r Hx; destruct (HL r Hx); try split; try lia; done). cbn [mbind option_bind].
  rewrite (mapM_map _ (λ r, table_of true r (sz r))). 2:{ intros r Hx. destruct (elem_of_list_lookup_1 _ _ Hx) as [k Hk]. destruct (rec_info k r Hk) as (H1 & H2 & H3 & _). by apply und_table_ok. }
  cbn [mbind option_bind]. fold und0. assert (HS0 : same_from 0 und0) by (split; [unfold und0; by rewrite map_length|done]).
  destruct (find_next_ok 0 und0 HS0 (length recs) 1) as (j & rj & -> & Hj & Hrj & Hbj & Hnj); [lia|lia|lia|]. cbn [mbind option_bind]. pose proof (lookup_lt_Some _ _ _ Hrj). rewrite decide_False by lia. fold rs.
  destruct (for_loop_inv (λ i (st : list (list (list R)) * option nat * nat), same_from i st.1.1 ∧ (∀ k r, (k < i)%nat → recs !! k = Some r → ∃ t, st.1.1 !! k = Some t ∧ final k r t) ∧ (∀ k, st.1.2 = Some k → (k < i)%nat ∧ big k) ∧ (st.1.2 = None → ∀ q, (q < i)%nat → ¬ big q) ∧ big st.2 ∧ (∀ q, (i ≤ q < st.2)%nat → (1 ≤ q)%nat → ¬ big q)) (length recs) 0 (fill_record fuel rs) (und0, None, j)) as ([[und ip] inx] & E & H1 & H2 & _).
  - cbn. split; [done|]. split; [intros; lia|]. split; [done|]. split; [intros; lia|]. split; [by exists rj|]. intros q Hq Hq1. apply Hnj. lia.
  - intros i [[und ip] inx] Hi (H1 & H2 & H3 & H3' & H4 & H5). cbn [fst snd] in *. destruct (fill_ok fuel i und ip inx Hfuel H1 ltac:(lia) H2 H3 H3' H4 H5) as (und' & ip' & inx' & E & K). eexists. split; [exact E|]. exact K.
  - rewrite E. cbn [mbind option_bind]. exists und. split; [done|]. cbn [fst snd] in *. split; [apply H1|]. intros k r Hk. apply H2; [|done]. apply lookup_lt_Some in Hk. lia.
Qed.
End oil.

(** C66: the tables of live oil: the constructor ends, its tables meet what C65 asks for;
    records with undersaturated rows give exactly these rows; those with one row are
    continued with further rows at larger pressures.  The slopes of these rows are, if no
    earlier record has undersaturated rows, those of the next record that has; otherwise
    they lie between those of an earlier record and of this one, weighted by Rs. *)
Theorem C66_oil recs fuel : good_pvto recs → (∀ r, r ∈ recs → 2 * length r + 2 ≤ fuel)%nat →
  ∃ L, oil_make fuel [recs] = Some L ∧ live_tables L (firsts recs 1) (firsts_inv recs 2) (firsts recs 3) (firsts recs 0) ∧ ordered 1 (firsts recs 0) ∧
    ∀ k r m, recs !! k = Some r → rows r m →
      ((2 ≤ m)%nat → lv_und L !! k = Some (table_of true r m)) ∧
      (m = 1%nat → ∃ d0 d1 d2, lv_und L !! k = Some [val r 1 :: d0; 1 / val r 2 :: d1; val r 3 :: d2] ∧ ordered 1 (val r 1 :: d0) ∧ (1 ≤ length d0)%nat ∧
        ∃ n rn mn, (k < n)%nat ∧ recs !! n = Some rn ∧ rows rn mn ∧ (2 ≤ mn)%nat ∧ (∀ q rq, (k < q < n)%nat → recs !! q = Some rq → rows rq 1) ∧
          ((∀ q rq, (q < k)%nat → recs !! q = Some rq → rows rq 1) ∧ sloped (segment (table_of true rn mn)) (val r 1) (1 / val r 2) (val r 3) d0 d1 d2 ∨
           ∃ q rq mq, (q < k)%nat ∧ recs !! q = Some rq ∧ rows rq mq ∧ (2 ≤ mq)%nat ∧
             sloped (between (table_of true rq mq) (table_of true rn mn) ((val r 0 - val rq 0) / (val rn 0 - val rq 0))) (val r 1) (1 / val r 2) (val r 3) d0 d1 d2)).
Proof.
  intros good Hfuel. destruct (oil_make_ok recs good fuel Hfuel) as (und & E & Lu & Hu). eexists. split; [exact E|].
  assert (HO : ∀ k, (k < 2)%nat → ordered 1 (firsts recs k)). { intros k Hk. split; [by left|]. intros i j a b Hij Ha Hb. unfold firsts in Ha, Hb. rewrite list_lookup_fmap in Ha, Hb. apply fmap_Some in Ha as (ra & Ea & ->). apply fmap_Some in Hb as (rb & Eb & ->). destruct (po_inc recs good i j ra rb Hij Ea Eb). destruct k as [|[|k]]; [lra|lra|lia]. }
  split; [|split; [apply HO; lia|]].
  - split; [done| |apply HO; lia|].
    + unfold firsts, firsts_inv. rewrite !map_length. pose proof (po_len recs good). lia.
    + cbn [lv_und]. unfold firsts. rewrite map_length. split; [done|]. apply Forall_lookup. intros k t Ht. destruct (lookup_lt_is_Some_2 recs k) as [r Hr]; [apply lookup_lt_Some in Ht; lia|]. destruct (Hu k r Hr) as (t' & Ht' & Hg & _). cbn in *. rewrite Ht in Ht'. injection Ht' as <-. exact Hg.
  - cbn [lv_und]. intros k r m Hk Hrow. destruct (Hu k r Hk) as (t & Ht & (xa & xb & xc & xs & Ex & Lx & _) & Heq & d0 & d1 & d2 & Et & Ho & Had).
    assert (Em : ((length r - 1) / 3)%nat = m). { unfold rows in Hrow. replace (length r - 1)%nat with (m * 3)%nat by lia. by rewrite Nat.div_mul. }
    rewrite Em in *. split; [intros Hm; by rewrite <- (Heq Hm)|]. intros ->. exists d0, d1, d2. split; [rewrite Ht, Et; reflexivity|]. split; [exact Ho|]. split. { rewrite Et in Ex. injection Ex as Ex _ _. rewrite <- Ex in Lx. cbn in Lx. lia. }
    assert (HB : ∀ q rq, recs !! q = Some rq → ¬ big recs q → rows rq 1). { intros q rq Hq Hn. destruct (rec_info recs good q rq Hq) as (H1 & H2 & _). destruct (decide ((length rq - 1) / 3 = 1)%nat) as [E1|]; [by rewrite E1 in H2|]. destruct Hn. exists rq. split; [done|lia]. }
    destruct (Had eq_refl) as (n & rn & Hn & Hrn & Hbn & Hnear & Hc). destruct (rec_info recs good n rn Hrn) as (_ & Hrown & _). exists n, rn, ((length rn - 1) / 3)%nat. split; [done|]. split; [done|]. split; [done|]. split; [done|]. split; [intros q rq Hq Hrq; eapply HB; [done|by apply Hnear]|].
    destruct Hc as [[Hno HS]|(q & rq & Hq & Hrq & Hbq & HS)].
    + left. split; [intros q rq Hq Hrq; eapply HB; [done|by apply Hno]|exact HS].
    + right. destruct (rec_info recs good q rq Hrq) as (_ & Hrowq & _). exists q, rq, ((length rq - 1) / 3)%nat. done.
Qed.
Print Assumptions C66_oil.
