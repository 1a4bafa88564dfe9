(** C62: sources, pressure drops, flow rates and reports of wells. *)
From Coq Require Import Reals Lra Psatz.
From Verif Require Import Base LoopModel LoopProof AccModel AccProof TofSpec TofProof TableModel WellsModel WellsSpec MiscModel MiscSpec WrepModel WrepSpec WrepProof.
Unset Default Proof Using.
Local Open Scope R_scope.

Lemma resize_length n l : length (resize n l) = n.
Proof. unfold resize. rewrite app_length, take_length, replicate_length. lia. Qed.
Lemma rdiv_Some x y : y ≠ 0 → rdiv x y = Some (x / y).
Proof. intros H. unfold rdiv. by destruct (Req_EM_T y 0). Qed.

Lemma sats_get np s i n p : length s = (n * np)%nat → (i < n)%nat → (p < np)%nat → s !! (np * i + p)%nat = Some (val (sats np s i) p).
Proof.
  intros HL Hi Hp. unfold val, sats. rewrite lookup_take, lookup_drop by done. destruct (lookup_lt_is_Some_2 s (np * i + p)) as [x ->]; [|done]. assert ((i + 1) * np ≤ n * np)%nat by (apply Nat.mul_le_mono_r; lia). lia.
Qed.
Lemma sats_length np s i n : length s = (n * np)%nat → (i < n)%nat → length (sats np s i) = np.
Proof. intros HL Hi. unfold sats. rewrite take_length, drop_length. assert ((i + 1) * np ≤ n * np)%nat by (apply Nat.mul_le_mono_r; lia). lia. Qed.
Lemma sum_list_val l : sum_list l = rsum (val l) (seq 0 (length l)).
Proof.
  unfold sum_list. induction l as [|x l IH]; [done|]. cbn [rsum length seq]. rewrite IH. unfold val at 2. cbn [lookup list_lookup default]. f_equal. rewrite <- fmap_S_seq. change (S <$> seq 0 (length l)) with (map S (seq 0 (length l))). rewrite rsum_map. done.
Qed.
Lemma sum_upto n (h : nat → option R) v : (∀ p, (p < n)%nat → h p = Some (v p)) → for_loop n 0 (λ p t, s ← h p; Some (t + s)) 0 = Some (rsum v (seq 0 n)).
Proof.
  intros Hh. destruct (for_loop_inv (λ k t, t = rsum v (seq 0 k)) n 0 (λ p t, s ← h p; Some (t + s)) 0) as (t & -> & ->); [done| |done].
  intros k t Hk ->. rewrite Hh by lia. cbn [mbind option_bind]. eexists. split; [done|]. rewrite Nat.add_1_r, seq_S, rsum_app. cbn [rsum Nat.add]. lra.
Qed.
(** A mean with nonnegative weights lies between the bounds of the values. *)
Lemma mean_by_bounds weight x lo hi : (∀ p, (p < length weight)%nat → 0 <= val weight p) → sum_list weight ≠ 0 → (∀ p, (p < length weight)%nat → lo <= val x p <= hi) → lo <= mean_by weight x <= hi.
Proof.
  intros Hw Hs Hx. rewrite sum_list_val in Hs. unfold mean_by. rewrite sum_list_val. set (n := length weight) in *.
  assert (Hp : 0 <= rsum (val weight) (seq 0 n)). { apply rsum_nonneg. intros p Hp. apply elem_of_seq in Hp. apply Hw. lia. }
  assert (Hl : lo * rsum (val weight) (seq 0 n) <= rsum (λ p, val weight p * val x p) (seq 0 n) <= hi * rsum (val weight) (seq 0 n)).
  { clear Hs Hp. assert (G : ∀ p, p ∈ seq 0 n → 0 <= val weight p ∧ lo <= val x p <= hi) by (intros p Hp; apply elem_of_seq in Hp; split; [apply Hw|apply Hx]; lia).
    revert G. generalize (seq 0 n). clear. intros l G. induction l as [|p l IH]; cbn [rsum]; [lra|]. destruct (G p ltac:(left)) as [H1 H2]. specialize (IH (λ p Hp, G p (elem_of_list_further _ _ _ Hp))). nra. }
  set (S := rsum (val weight) (seq 0 n)) in *. set (T := rsum _ _) in Hl |- *. split; apply (Rmult_le_reg_r S); try lra; unfold Rdiv; rewrite Rmult_assoc, Rinv_l by done; lra.
Qed.

Lemma first_share_ok np mobs visc (v : nat → R) : (0 < np ≤ length mobs)%nat → (∀ p, (p < np)%nat → visc !! p = Some (v p) ∧ v p ≠ 0) → rsum (λ p, val mobs p / v p) (seq 0 np) ≠ 0 →
  first_share np mobs visc = Some (val mobs 0 / v 0%nat / rsum (λ p, val mobs p / v p) (seq 0 np)).
Proof.
  intros Hnp Hv HT. unfold first_share.
  destruct (for_loop_inv (λ k s, s.2 = rsum (λ p, val mobs p / v p) (seq 0 k) ∧ length s.1 = length mobs ∧ (∀ i, (i < k)%nat → s.1 !! i = Some (val mobs i / v i)) ∧ ∀ i, (k ≤ i)%nat → s.1 !! i = mobs !! i) np 0
    (λ i '(mob, tmob), m ← mob !! i; v ← visc !! i; m ← rdiv m v; mob ← upd mob i m; Some (mob, tmob + m)) (mobs, 0)) as ([m T] & -> & E1 & E2 & E3 & _).
  - split; [done|]. split; [done|]. split; [intros; lia|done].
  - intros k [m T] Hk (E1 & E2 & E3 & E4). cbn [fst snd] in *. rewrite E4 by lia. destruct (lookup_lt_is_Some_2 mobs k) as [x Hx]; [lia|]. destruct (Hv k ltac:(lia)) as [Hvk Hnz]. rewrite Hx, Hvk. cbn [mbind option_bind]. rewrite rdiv_Some by done. cbn [mbind option_bind].
    rewrite upd_Some by lia. cbn [mbind option_bind]. eexists. split; [done|]. cbn [fst snd]. assert (val mobs k = x) as Hvx by (unfold val; by rewrite Hx). split; [rewrite Nat.add_1_r, seq_S, rsum_app; cbn [rsum Nat.add]; rewrite E1, Hvx; lra|]. split; [by rewrite insert_length|]. split.
    + intros i Hi. destruct (decide (i = k)) as [->|]; [rewrite list_lookup_insert by lia; by rewrite Hvx|]. rewrite list_lookup_insert_ne by lia. apply E3. lia.
    + intros i Hi. rewrite list_lookup_insert_ne by lia. apply E4. lia.
  - cbn [mbind option_bind fst snd] in *. rewrite E3 by lia. cbn [mbind option_bind]. rewrite E1. change (0 + np)%nat with np. by apply rdiv_Some.
Qed.

Section wells.
Context {name_t : Type}.
Variable W : @wells R name_t.
Variable ws : list (@awell R name_t).
Hypothesis Hview : view W = Some ws.

(** ** wellsToSrc *)
Lemma well_src_ok nc w aw cell rate src : w_np W = 2%nat → ws !! w = Some aw → simple_well nc aw cell rate → length src = nc → well_src W w src = Some (<[cell := rate]> src).
Proof using Hview.
  intros Hnp Hw (Hc & (wi & Hp) & k & target & water & Hcur & Hk & Hf & ->) HL. destruct (well_facts W ws Hview w aw Hw) as (b & c & Hb & He & Hcells & Hty & _ & Hfrac & Hctrl & Hcc & Hac & _).
  unfold well_src. rewrite Hctrl. cbn [mbind option_bind]. rewrite Hcc, Hcur, cell_ix_ok. cbn [mbind option_bind]. destruct (Hac k _ Hk) as (H1 & H2 & H3). cbn [ac_type ac_target ac_distr] in *.
  rewrite H1. cbn [mbind option_bind]. rewrite decide_True by done. rewrite He, Hb. cbn [mbind option_bind]. rewrite Hp. cbn [length]. rewrite decide_True by lia.
  rewrite Hnp in *. cbn [for_loop mbind option_bind]. rewrite Hp in Hcells.
  pose proof (slice_lookup _ _ _ _ 0 H3 ltac:(lia)) as D0. pose proof (slice_lookup _ _ _ _ 1 H3 ltac:(lia)) as D1. cbn in D0, D1.
  replace (2 * k + 0)%nat with (k * 2 + 0)%nat by lia. replace (2 * k + 1)%nat with (k * 2 + 1)%nat by lia.
  rewrite D0, D1. cbn [mbind option_bind]. destruct (Req_EM_T 1 1) as [_|[]]; [|done]. cbn [mbind option_bind]. rewrite H2, Hty. cbn [mbind option_bind].
  pose proof (slice_lookup _ _ _ _ 0 Hfrac ltac:(lia)) as F0. rewrite Hf in F0.
  pose proof (Hcells 0%nat _ eq_refl) as Hz. rewrite Nat.add_0_r in Hz. cbn [fst] in Hz. rewrite F0.
  destruct (aw_type aw); [rewrite decide_True by done|rewrite decide_False by done]; cbn [mbind option_bind]; rewrite Hz; cbn [mbind option_bind]; rewrite cell_ix_ok; cbn [mbind option_bind]; by rewrite upd_Some by lia.
Qed.

(** C62: if all wells are simple, the source of a cell is the rate of the last
    well in it; cells without wells keep what they had. *)
Theorem C62_source nc src (cell : nat → nat) (rate : nat → R) : w_np W = 2%nat → (∀ w aw, ws !! w = Some aw → simple_well nc aw (cell w) (rate w)) →
  ∃ src', wells_to_src W nc src = Some src' ∧ length src' = nc ∧
    (∀ w, (w < length ws)%nat → (∀ w', (w < w' < length ws)%nat → cell w' ≠ cell w) → src' !! cell w = Some (rate w)) ∧
    ∀ c, (∀ w, (w < length ws)%nat → cell w ≠ c) → src' !! c = resize nc src !! c.
Proof using Hview.
  intros Hnp HS. unfold wells_to_src. rewrite decide_True by done.
  destruct (wells_loop W ws Hview (λ n s, length s = nc ∧ (∀ w, (w < n)%nat → (∀ w', (w < w' < n)%nat → cell w' ≠ cell w) → s !! cell w = Some (rate w)) ∧
    ∀ c, (∀ w, (w < n)%nat → cell w ≠ c) → s !! c = resize nc src !! c) (well_src W) (resize nc src)) as (s & -> & HL & H1 & H2).
  - split; [apply resize_length|]. split; [intros; lia|done].
  - intros w aw s Hw (HL & H1 & H2). pose proof (HS w aw Hw) as Hs. rewrite (well_src_ok nc w aw (cell w) (rate w) s Hnp Hw Hs HL). destruct Hs as [Hc _]. eexists. split; [done|]. split; [by rewrite insert_length|]. split.
    + intros w' Hw' Hlast. destruct (decide (w' = w)) as [->|Hne]; [apply list_lookup_insert; lia|]. rewrite list_lookup_insert_ne by (apply Hlast; lia). apply H1; [lia|]. intros w2 Hw2. apply Hlast. lia.
    + intros c Hn. rewrite list_lookup_insert_ne by (apply Hn; lia). apply H2. intros w' Hw'. apply Hn. lia.
  - rewrite (ws_length W ws Hview). by exists s.
Qed.
Lemma well_src_only nc w aw src src' : w_np W = 2%nat → ws !! w = Some aw → (aw_current aw < Z.of_nat (length (aw_ctrls aw)))%Z → length src = nc → well_src W w src = Some src' → length src' = nc ∧ ∃ cell rate, simple_well nc aw cell rate.
Proof using Hview.
  intros Hnp Hw Hcur HL E. destruct (well_facts W ws Hview w aw Hw) as (b & c & Hb & He & Hcells & Hty & _ & Hfrac & Hctrl & Hcc & Hac & Hnum).
  unfold well_src in E. rewrite Hctrl in E. cbn [mbind option_bind] in E. destruct (cell_ix (c_current c)) as [k|] eqn:Hk; [|done]. apply cell_ix_Some in Hk. cbn [mbind option_bind] in E.
  destruct (lookup_lt_is_Some_2 (aw_ctrls aw) k) as [ac Hacs]; [rewrite <- Hcc, Hk in Hcur; lia|]. destruct (Hac k ac Hacs) as (H1 & H2 & H3). rewrite H1 in E. cbn [mbind option_bind] in E.
  case_decide as Hrr; [|done]. rewrite He, Hb in E. cbn [mbind option_bind] in E. case_decide as Hone; [|done].
  rewrite Hnp in *. cbn [for_loop mbind option_bind] in E. pose proof (slice_length _ _ _ _ H3) as L3. pose proof (slice_lookup _ _ _ _ 0 H3 ltac:(lia)) as D0. pose proof (slice_lookup _ _ _ _ 1 H3 ltac:(lia)) as D1.
  destruct (ac_distr ac) as [|d0 [|d1 [|]]] eqn:Hd; try done. cbn in D0, D1.
  replace (2 * k + 0)%nat with (k * 2 + 0)%nat in E by lia. replace (2 * k + 1)%nat with (k * 2 + 1)%nat in E by lia. rewrite D0, D1 in E. cbn [mbind option_bind] in E.
  destruct (Req_EM_T d0 1) as [->|]; [|done]. cbn [mbind option_bind] in E. destruct (Req_EM_T d1 1) as [->|]; [|done]. cbn [mbind option_bind] in E. rewrite H2, Hty in E. cbn [mbind option_bind] in E.
  pose proof (slice_length _ _ _ _ Hfrac) as LF. destruct (lookup_lt_is_Some_2 (aw_frac aw) 0) as [water Hwat]; [lia|]. pose proof (slice_lookup _ _ _ _ 0 Hfrac ltac:(lia)) as F0. rewrite Hwat in F0. rewrite F0 in E.
  destruct (aw_perfs aw) as [|p [|]] eqn:Hp; cbn [length] in Hone; try lia. pose proof (Hcells 0%nat _ eq_refl) as Hz. rewrite Nat.add_0_r in Hz. rewrite Hz in E.
  set (flow := match aw_type aw with INJECTOR => ac_target ac * water | PRODUCER => ac_target ac end).
  assert (E' : (cell ← cell_ix p.1; upd src cell flow) = Some src'). { rewrite <- E. unfold flow. destruct (aw_type aw); [rewrite decide_True by done|rewrite decide_False by done]; done. }
  destruct (cell_ix p.1) as [cell|] eqn:Hcell; [|done]. apply cell_ix_Some in Hcell. cbn [mbind option_bind] in E'.
  assert (cell < length src)%nat as Hlt. { unfold upd in E'. case_decide; done. } rewrite upd_Some in E' by done. injection E' as <-. split; [by rewrite insert_length|].
  exists cell, flow. split; [lia|]. split; [exists p.2; rewrite Hp, <- Hcell; by destruct p|]. exists k, (ac_target ac), water. split; [congruence|]. split; [|done]. rewrite Hacs. destruct ac. cbn in *. congruence.
Qed.
(** C62: wells that are not simple are refused. *)
Theorem C62_source_only nc src src' : (∀ aw, aw ∈ ws → (aw_current aw < Z.of_nat (length (aw_ctrls aw)))%Z) → wells_to_src W nc src = Some src' →
  w_np W = 2%nat ∧ ∀ w aw, ws !! w = Some aw → ∃ cell rate, simple_well nc aw cell rate.
Proof using Hview.
  intros Hcur E. unfold wells_to_src in E. case_decide as Hnp; [|done]. split; [done|]. pose proof (ws_length W ws Hview) as Hlen.
  assert (G : ∀ n s, (∀ w aw, ws !! w = Some aw → (w < w_nw W - n)%nat → ∃ cell rate, simple_well nc aw cell rate) → (n ≤ w_nw W)%nat → length s = nc → for_loop n (w_nw W - n) (well_src W) s = Some src' → ∀ w aw, ws !! w = Some aw → ∃ cell rate, simple_well nc aw cell rate).
  { induction n as [|n IH]; intros s Hbef Hn HL En w aw Hw.
    - apply (Hbef w aw Hw). apply lookup_lt_Some in Hw. lia.
    - cbn [for_loop] in En. destruct (well_src W (w_nw W - S n) s) as [s'|] eqn:Es; [|done]. cbn [mbind option_bind] in En.
      destruct (lookup_lt_is_Some_2 ws (w_nw W - S n)) as [aw' Haw']; [lia|]. destruct (well_src_only nc _ aw' s s' Hnp Haw' (Hcur aw' (elem_of_list_lookup_2 _ _ _ Haw')) HL Es) as [HL' Hsim].
      replace (S (w_nw W - S n))%nat with (w_nw W - n)%nat in En by lia. apply (IH s') with (w := w); [|lia|done|done|done].
      intros w2 aw2 Hw2 Hlt. destruct (decide (w2 = w_nw W - S n)%nat) as [->|Hne]; [|apply (Hbef w2 aw2 Hw2); lia]. rewrite Haw' in Hw2. by injection Hw2 as <-. }
  intros w aw Hw. apply (G (w_nw W) (resize nc src)) with (w := w); [intros; lia|lia|apply resize_length| |done]. by rewrite Nat.sub_diag.
Qed.

(** C62: with an empty vector and no two wells in a cell, the sources add up to
    the rates of the wells. *)
Theorem C62_source_total nc (cell : nat → nat) (rate : nat → R) : w_np W = 2%nat → (∀ w aw, ws !! w = Some aw → simple_well nc aw (cell w) (rate w)) →
  (∀ w w', (w < length ws)%nat → (w' < length ws)%nat → cell w = cell w' → w = w') →
  ∃ src', wells_to_src W nc [] = Some src' ∧ total src' = rsum rate (seq 0 (length ws)).
Proof using Hview.
  intros Hnp HS Hinj. destruct (C62_source nc [] cell rate Hnp HS) as (s & E & HL & H1 & H2). exists s. split; [done|]. unfold total. rewrite HL.
  rewrite (rsum_ext _ (λ c, rsum (λ w, if decide (cell w = c) then rate w else 0) (seq 0 (length ws)))).
  - rewrite rsum_swap. apply rsum_ext. intros w Hw. apply elem_of_seq in Hw. destruct (lookup_lt_is_Some_2 ws w) as [aw Haw]; [lia|]. destruct (HS w aw Haw) as [Hc _].
    rewrite (rsum_ext _ (λ c, if decide (c = cell w) then rate w else 0)); [|intros c _; repeat case_decide; congruence]. apply (rsum_single (λ _, rate w)); [apply NoDup_seq|apply elem_of_seq; lia].
  - intros c Hc. apply elem_of_seq in Hc. unfold val. destruct (decide (Exists (λ w, cell w = c) (seq 0 (length ws)))) as [(w & Hw & <-)%Exists_exists|Hno]; [|rewrite Exists_exists in Hno].
    + pose proof Hw as Hw'. apply elem_of_seq in Hw'. rewrite H1; [|lia|intros w' Hw2 Heq; apply Hinj in Heq; lia]. cbn. symmetry.
      rewrite (rsum_ext _ (λ w', if decide (w' = w) then rate w else 0)); [apply (rsum_single (λ _, rate w)); [apply NoDup_seq|done]|].
      intros w' Hw2. apply elem_of_seq in Hw2. repeat case_decide; subst; try done. exfalso. apply Hinj in H; lia.
    + rewrite H2 by (intros w Hw Heq; apply Hno; exists w; split; [apply elem_of_seq; lia|done]). unfold resize. rewrite take_nil. cbn [app length]. rewrite Nat.sub_0_r, lookup_replicate_2 by lia. cbn. symmetry.
      apply rsum_zero. intros w Hw. case_decide as Heq; [|done]. destruct Hno. by exists w.
Qed.

Hypothesis H0 : w_connpos W !! 0%nat = Some 0%nat.
(** ** computeFlowRatePerWell *)
(** C62: the rate of a well is the sum of those of its perforations. *)
Theorem C62_flow qs rest old : rates_of ws qs → compute_flow_rate_per_well W (concat qs ++ rest) old = Some (old ++ map sum_list qs).
Proof using Hview H0.
  intros HF. pose proof (Forall2_length _ _ _ HF) as Hlen. unfold compute_flow_rate_per_well.
  match goal with |- context [for_loop (w_nw W) 0 ?b _] => set (body := b) end.
  destruct (wells_loop W ws Hview (λ n s, s = (before ws n, old ++ map sum_list (take n qs))) body (0%nat, old)) as (s & -> & ->).
  - by rewrite take_0, app_nil_r.
  - intros w aw s Hw ->. unfold body. destruct (well_range W ws Hview H0 w aw Hw) as (Hb & He & _). rewrite He, Hb. cbn [mbind option_bind]. replace (before ws w + length (aw_perfs aw) - before ws w)%nat with (length (aw_perfs aw)) by lia.
    destruct (Forall2_lookup_l _ _ _ _ _ HF Hw) as (q & Hq & Hl).
    destruct (for_loop_inv (λ t s, s = ((before ws w + t)%nat, sum_list (take t q))) (length (aw_perfs aw)) 0 (λ _ '(ix, sum), q ← (concat qs ++ rest) !! ix; Some ((ix + 1)%nat, sum + q)) (before ws w, 0)) as (s & -> & ->).
    + by rewrite Nat.add_0_r.
    + intros t s Ht ->. destruct (lookup_lt_is_Some_2 q t) as [x Hx]; [lia|]. pose proof (rates_lookup ws qs w aw q t HF Hw Hq ltac:(lia)) as E. rewrite Hx in E. rewrite (lookup_app_l_Some _ _ _ _ E). cbn [mbind option_bind].
      eexists. split; [done|]. rewrite (Nat.add_1_r t), (take_S_r _ _ _ Hx). unfold sum_list. rewrite rsum_app. cbn [rsum]. f_equal; [lia|lra].
    + cbn [mbind option_bind]. eexists. split; [done|]. rewrite (before_S ws w aw Hw). cbn [Nat.add]. f_equal. rewrite (Nat.add_1_r w), (take_S_r _ _ _ Hq), map_app, app_assoc. cbn [map]. by rewrite (take_ge q) by lia.
  - cbn [mbind option_bind]. rewrite take_ge; [done|]. rewrite <- Hlen, (ws_length W ws Hview). done.
Qed.
(** C62: nothing is lost: the rates of the wells add up to those of all
    perforations. *)
Theorem C62_flow_total qs : rates_of ws qs → ∃ l, compute_flow_rate_per_well W (concat qs) [] = Some l ∧ length l = length ws ∧ sum_list l = sum_list (concat qs).
Proof using Hview H0.
  intros HF. exists (map sum_list qs). split; [|split; [rewrite map_length; symmetry; by apply (Forall2_length _ _ _ HF)|]].
  - rewrite <- (app_nil_r (concat qs)). by apply C62_flow.
  - clear. unfold sum_list. induction qs as [|q qs IH]; [done|]. cbn [map concat rsum]. by rewrite rsum_app, IH.
Qed.

(** ** computePhaseFlowRatesPerWell *)
(** C62: the rate of a phase in a well is that of its perforations, each times
    the fractional flow in its cell. *)
Theorem C62_phase nc qs ff old : rates_of ws qs → in_cells nc ws → length ff = (nc * w_np W)%nat → 
  ∃ l, compute_phase_flow_rates_per_well W (concat qs) ff old = Some l ∧ length l = (w_nw W * w_np W)%nat ∧
    ∀ w aw q ph, ws !! w = Some aw → qs !! w = Some q → (ph < w_np W)%nat → l !! (w * w_np W + ph)%nat = Some (over aw q (λ c x, x * val ff (c * w_np W + ph))).
Proof using Hview H0.
  intros HF Hin HL. set (np := w_np W) in *. pose proof (ws_length W ws Hview) as Hlen.
  assert (Hcc : ∀ w aw t p ph, ws !! w = Some aw → aw_perfs aw !! t = Some p → (ph < np)%nat → cell_ix p.1 = Some (pcell p) ∧ ff !! (pcell p * np + ph)%nat = Some (val ff (pcell p * np + ph))).
  { intros w aw t p ph Hw Hp Hph. pose proof (Hin aw p (elem_of_list_lookup_2 _ _ _ Hw) (elem_of_list_lookup_2 _ _ _ Hp)) as [Hz Hc]. split; [by apply cell_ix_pos|]. unfold val.
    destruct (lookup_lt_is_Some_2 ff (pcell p * np + ph)) as [x ->]; [|done]. unfold pcell. rewrite HL. assert ((Z.to_nat p.1 + 1) * np ≤ nc * np)%nat by (apply Nat.mul_le_mono_r; lia). lia. }
  unfold compute_phase_flow_rates_per_well. rewrite (connpos_before W ws Hview H0 (w_nw W)) by lia. cbn [mbind option_bind].
  assert (Hl : length (concat qs) = before ws (w_nw W)).
  { unfold before. rewrite take_ge by lia. clear - HF. induction HF as [|a q ws qs Hl HF IH]; [done|]. cbn. rewrite !app_length. lia. }
  rewrite decide_True by done. fold np. cbn zeta.
  match goal with |- context [for_loop (w_nw W) 0 ?b _] => set (body := b) end.
  set (val_of := λ w ph, match ws !! w, qs !! w with Some aw, Some q => over aw q (λ c x, x * val ff (c * np + ph)) | _, _ => 0 end).
  destruct (wells_loop W ws Hview (λ n l, length l = (w_nw W * np)%nat ∧ ∀ w ph, (w < n)%nat → (ph < np)%nat → l !! (w * np + ph)%nat = Some (val_of w ph)) body (resize (w_nw W * np) old)) as (l & -> & Hll & Hlv).
  - split; [apply resize_length|]. intros; lia.
  - intros w aw l Hw (Hll & Hlv). unfold body. pose proof (lookup_lt_Some _ _ _ Hw) as Hwlt. assert (Hroom : ((w + 1) * np ≤ w_nw W * np)%nat) by (apply Nat.mul_le_mono_r; lia).
    destruct (Forall2_lookup_l _ _ _ _ _ HF Hw) as (q & Hq & Hql).
    destruct (for_loop_inv (λ k l', length l' = (w_nw W * np)%nat ∧ (∀ i, (i < w * np)%nat → l' !! i = l !! i) ∧ ∀ ph, (ph < k)%nat → l' !! (w * np + ph)%nat = Some 0) np 0 (λ phase flows, upd flows (w * np + phase) 0) l) as (l1 & -> & L1 & P1 & Z1).
    { split; [done|]. split; [done|]. intros; lia. }
    { intros k l' Hk (L' & P' & Z'). rewrite upd_Some by lia. eexists. split; [done|]. split; [by rewrite insert_length|]. split.
      - intros i Hi. rewrite list_lookup_insert_ne by lia. by apply P'.
      - intros ph Hph. destruct (decide (ph = k)) as [->|]; [apply list_lookup_insert; lia|]. rewrite list_lookup_insert_ne by lia. apply Z'. lia. }
    cbn [mbind option_bind]. destruct (well_range W ws Hview H0 w aw Hw) as (Hb & He & Hcell). rewrite Hb, He. cbn [mbind option_bind]. replace (before ws w + length (aw_perfs aw) - before ws w)%nat with (length (aw_perfs aw)) by lia.
    set (b := before ws w) in *.
    destruct (for_loop_inv (λ j l', length l' = (w_nw W * np)%nat ∧ (∀ i, (i < w * np)%nat → l' !! i = l !! i) ∧ ∀ ph, (ph < np)%nat → l' !! (w * np + ph)%nat = Some (rsum (λ pq, pq.2 * val ff (pcell pq.1 * np + ph)) (take (j - b) (zip (aw_perfs aw) q))))
      (length (aw_perfs aw)) b (λ i flows, z ← w_cells W !! i; cell ← cell_ix z;
        for_loop np 0 (λ phase flows, q ← concat qs !! i; f ← ff !! (cell * np + phase)%nat; addto flows (w * np + phase) (q * f)) flows) l1) as (l2 & -> & L2 & P2 & V2).
    { split; [done|]. split; [done|]. intros ph Hph. rewrite Nat.sub_diag, take_0. by apply Z1. }
    { intros j l' Hj (L' & P' & V'). destruct (lookup_lt_is_Some_2 (aw_perfs aw) (j - b)) as [p Hp]; [lia|]. destruct (lookup_lt_is_Some_2 q (j - b)) as [x Hx]; [lia|].
      pose proof (Hcell (j - b)%nat p Hp) as Hz. replace (b + (j - b))%nat with j in Hz by lia. rewrite Hz. cbn [mbind option_bind].
      pose proof (rates_lookup ws qs w aw q (j - b) HF Hw Hq ltac:(lia)) as Hr. fold b in Hr. replace (b + (j - b))%nat with j in Hr by lia. rewrite Hx in Hr. rewrite Hr.
      destruct (decide (np = 0)%nat) as [Hnp0|Hnp0].
      { rewrite (cell_ix_pos p.1) by (apply (Hin aw p (elem_of_list_lookup_2 _ _ _ Hw) (elem_of_list_lookup_2 _ _ _ Hp))). cbn [mbind option_bind]. assert (E0 : ∀ F, for_loop np 0 F l' = Some l') by (intros F; by rewrite Hnp0). rewrite E0. exists l'. split; [done|]. split; [done|]. split; [done|]. intros; lia. }
      destruct (Hcc w aw _ p 0%nat Hw Hp ltac:(lia)) as [-> _]. cbn [mbind option_bind].
      destruct (for_loop_inv (λ k m, length m = (w_nw W * np)%nat ∧ (∀ i, (i < w * np)%nat → m !! i = l !! i) ∧ (∀ ph, (ph < k)%nat → (ph < np)%nat → m !! (w * np + ph)%nat = Some (rsum (λ pq, pq.2 * val ff (pcell pq.1 * np + ph)) (take (j + 1 - b) (zip (aw_perfs aw) q)))) ∧ ∀ ph, (k ≤ ph)%nat → m !! (w * np + ph)%nat = l' !! (w * np + ph)%nat)
        np 0 (λ phase flows, f ← ff !! (pcell p * np + phase)%nat; addto flows (w * np + phase) (x * f)) l') as (m & Em & Lm & Pm & Vm & _).
      - split; [done|]. split; [done|]. split; [intros; lia|done].
      - intros k m Hk (Lm & Pm & Vm & Um). destruct (Hcc w aw _ p k Hw Hp ltac:(lia)) as [_ ->]. cbn [mbind option_bind]. unfold addto. rewrite (Um k) by lia. rewrite (V' k) by lia. cbn [mbind option_bind]. rewrite upd_Some by lia.
        eexists. split; [done|]. split; [by rewrite insert_length|]. split; [intros i Hi; rewrite list_lookup_insert_ne by lia; by apply Pm|]. split.
        + intros ph Hph Hph'. destruct (decide (ph = k)) as [->|]; [|rewrite list_lookup_insert_ne by lia; apply Vm; lia]. rewrite list_lookup_insert by lia. f_equal.
          replace (j + 1 - b)%nat with (S (j - b)) by lia. rewrite (take_S_r _ _ (p, x)) by (apply lookup_zip_with_Some; by exists p, x). rewrite rsum_app. cbn [rsum fst snd]. lra.
        + intros ph Hph. rewrite list_lookup_insert_ne by lia. apply Um. lia.
      - exists m. split; [exact Em|]. split; [done|]. split; [done|]. intros ph Hph. by apply Vm. }
    exists l2. split; [done|]. split; [done|]. intros w' ph Hw' Hph. destruct (decide (w' = w)) as [->|Hne].
    + rewrite V2 by done. f_equal. unfold val_of. rewrite Hw, Hq. unfold over. rewrite take_ge; [done|]. rewrite zip_with_length. lia.
    + assert ((w' + 1) * np ≤ w * np)%nat by (apply Nat.mul_le_mono_r; lia). rewrite P2 by lia. apply Hlv; [lia|done].
  - exists l. split; [done|]. split; [done|]. intros w aw q ph Hw Hq Hph. rewrite Hlv; [|rewrite <- Hlen; by apply lookup_lt_Some in Hw|done]. unfold val_of. by rewrite Hw, Hq.
Qed.
(** C62: where the fractional flows add up to 1, the rates of the phases add up
    to the rate of the well. *)
Theorem C62_phase_total nc qs ff old : rates_of ws qs → in_cells nc ws → length ff = (nc * w_np W)%nat →
  (∀ c, (c < nc)%nat → rsum (λ ph, val ff (c * w_np W + ph)) (seq 0 (w_np W)) = 1) →
  ∃ l, compute_phase_flow_rates_per_well W (concat qs) ff old = Some l ∧
    ∀ w q, qs !! w = Some q → rsum (λ ph, val l (w * w_np W + ph)) (seq 0 (w_np W)) = sum_list q.
Proof using Hview H0.
  intros HF Hin HL Hone. destruct (C62_phase nc qs ff old HF Hin HL) as (l & E & _ & Hl). exists l. split; [done|]. intros w q Hq.
  destruct (Forall2_lookup_r _ _ _ _ _ HF Hq) as (aw & Hw & Hql). rewrite (rsum_ext _ (λ ph, over aw q (λ c x, x * val ff (c * w_np W + ph)))).
  2:{ intros ph Hph. apply elem_of_seq in Hph. unfold val at 1. by rewrite (Hl w aw q ph Hw Hq) by lia. }
  unfold over. rewrite rsum_swap. rewrite (rsum_ext _ (λ pq, pq.2)).
  - unfold sum_list. rewrite <- (rsum_map (λ x, x) (λ pq : Z * R * R, pq.2)). f_equal. change (map (λ pq : Z * R * R, pq.2) (zip (aw_perfs aw) q)) with ((zip (aw_perfs aw) q).*2). apply snd_zip. lia.
  - intros [p x] Hp. cbn [fst snd]. rewrite rsum_scale, Hone; [lra|]. apply elem_of_zip_l in Hp. pose proof (Hin aw p (elem_of_list_lookup_2 _ _ _ Hw) Hp). unfold pcell. lia.
Qed.

(** ** computeWDP *)
(** C62: for each perforation one value is appended: the weight of the column of
    fluid between the reference depth of the well and the cell; the density is
    the mean of the densities of the phases, weighted by saturation. *)
Theorem C62_wdp nc np saturations densities depth gravity (per_cell : bool) wdp : in_cells nc ws →
  let n := if per_cell then nc else before ws (w_nw W) in n ≠ 0%nat → length saturations = (n * np)%nat → (np ≤ length densities)%nat → (3 * nc ≤ length depth)%nat →
  ∃ l, compute_wdp W nc saturations densities depth gravity per_cell wdp = Some (wdp ++ l) ∧ length l = before ws (w_nw W) ∧
    ∀ w aw t p, ws !! w = Some aw → aw_perfs aw !! t = Some p →
      let sat := sats np saturations (if per_cell then pcell p else before ws w + t)%nat in
      (sum_list sat ≠ 0 → l !! (before ws w + t)%nat = Some (mean_by sat densities * (val depth (3 * pcell p + 2) - aw_depth aw) * gravity)) ∧
      ((∀ q, val sat q = 0) → l !! (before ws w + t)%nat = Some 0).
Proof using Hview H0.
  intros Hin n Hn Hs Hd Hz. pose proof (ws_length W ws Hview) as Hlen. unfold compute_wdp.
  assert ((if per_cell then Some nc else w_connpos W !! w_nw W) = Some n) as ->. { unfold n. destruct per_cell; [done|]. by rewrite (connpos_before W ws Hview H0 (w_nw W)) by lia. }
  cbn [mbind option_bind]. rewrite decide_False by done. assert (length saturations / n = np)%nat as ->. { rewrite Hs, Nat.mul_comm. by apply Nat.div_mul. } cbn zeta.
  set (sat := λ w t (p : Z * R), sats np saturations (if per_cell then pcell p else before ws w + t)%nat).
  set (dens := λ s, if Req_EM_T (sum_list s) 0 then rsum (λ p, val s p * val densities p) (seq 0 np) else mean_by s densities).
  set (h := λ (w : nat) (aw : @awell R name_t) (t : nat) (p : Z * R), dens (sat w t p) * (val depth (3 * pcell p + 2) - aw_depth aw) * gravity).
  assert (Hperf : ∀ w aw t p l, ws !! w = Some aw → aw_perfs aw !! t = Some p → wdp_perf W np saturations densities depth gravity per_cell w (before ws w + t) l = Some (l ++ [h w aw t p])).
  { intros w aw t p l Hw Hp. destruct (well_facts W ws Hview w aw Hw) as (_ & _ & _ & _ & _ & _ & Hdep & _). destruct (well_range W ws Hview H0 w aw Hw) as (_ & _ & Hc). unfold wdp_perf. rewrite Hdep, (Hc t p Hp). cbn [mbind option_bind].
    pose proof (Hin aw p (elem_of_list_lookup_2 _ _ _ Hw) (elem_of_list_lookup_2 _ _ _ Hp)) as [Hz0 Hz1]. rewrite cell_ix_pos by done. fold (pcell p). assert (pcell p < nc)%nat as Hpc by (unfold pcell; lia). cbn [mbind option_bind].
    assert (depth !! (3 * pcell p + 2)%nat = Some (val depth (3 * pcell p + 2))) as ->. { unfold val. destruct (lookup_lt_is_Some_2 depth (3 * pcell p + 2)) as [x ->]; [lia|done]. } cbn [mbind option_bind].
    set (i := (if per_cell then pcell p else before ws w + t)%nat). assert (Hi : (i < n)%nat).
    { unfold i, n. destruct per_cell; [done|]. pose proof (before_S ws w aw Hw). pose proof (lookup_lt_Some _ _ _ Hp). pose proof (lookup_lt_Some _ _ _ Hw). pose proof (before_mono ws (w + 1) (w_nw W) ltac:(lia)). lia. }
    assert ((if per_cell then (np * pcell p)%nat else ((before ws w + t) * np)%nat) = (np * i)%nat) as ->. { unfold i. destruct per_cell; [done|lia]. } cbn zeta.
    pose proof (sats_length np saturations i n Hs Hi) as HLs.
    rewrite (sum_upto np (λ p0, saturations !! (np * i + p0)%nat) (val (sat w t p))) by (intros p0 Hp0; by apply (sats_get _ _ _ n)). cbn [mbind option_bind].
    assert (rsum (val (sat w t p)) (seq 0 np) = sum_list (sat w t p)) as ->. { rewrite sum_list_val. unfold sat. fold i. by rewrite HLs. }
    set (S := if Req_EM_T (sum_list (sat w t p)) 0 then 1 else sum_list (sat w t p)). assert (HS : S ≠ 0). { unfold S. destruct (Req_EM_T _ _); [lra|done]. }
    match goal with |- context [for_loop np 0 ?b 0] => assert (for_loop np 0 b 0 = Some (dens (sat w t p))) as -> end; [|done].
    transitivity (for_loop np 0 (λ p0 t0, s ← (s ← saturations !! (np * i + p0)%nat; r ← densities !! p0; rdiv (s * r) S); Some (t0 + s)) 0).
    { apply for_loop_ext. intros p0 t0 Hp0. destruct (saturations !! (np * i + p0)%nat); [|done]. cbn [mbind option_bind]. destruct (densities !! p0); [|done]. done. }
    rewrite (sum_upto np _ (λ p0, / S * (val (sat w t p) p0 * val densities p0))).
    - f_equal. rewrite rsum_scale. assert (HLsat : length (sat w t p) = np) by exact HLs. unfold dens, S, mean_by. rewrite HLsat. destruct (Req_EM_T _ _); [rewrite Rinv_1; lra|]. unfold Rdiv. lra.
    - intros p0 Hp0. rewrite (sats_get np saturations i n p0 Hs Hi Hp0). destruct (lookup_lt_is_Some_2 densities p0) as [r Hr]; [lia|]. rewrite Hr. cbn [mbind option_bind]. rewrite rdiv_Some by done. unfold val at 3. rewrite Hr. cbn. f_equal. unfold sat. fold i. field. done. }
  match goal with |- context [for_loop (w_nw W) 0 ?b _] => set (body := b) end.
  destruct (wells_loop W ws Hview (λ k s, ∃ l, s = wdp ++ l ∧ length l = before ws k ∧ ∀ w aw t p, (w < k)%nat → ws !! w = Some aw → aw_perfs aw !! t = Some p → l !! (before ws w + t)%nat = Some (h w aw t p)) body wdp) as (s & -> & l & -> & Hll & Hl).
  - exists []. split; [by rewrite app_nil_r|]. split; [done|]. intros; lia.
  - intros w aw s Hw (l & -> & Hll & Hl). unfold body. destruct (well_range W ws Hview H0 w aw Hw) as (Hb & He & _). rewrite Hb, He. cbn [mbind option_bind]. replace (before ws w + length (aw_perfs aw) - before ws w)%nat with (length (aw_perfs aw)) by lia.
    destruct (for_loop_inv (λ j s, ∃ m, s = wdp ++ l ++ m ∧ (before ws w + length m = j)%nat ∧ ∀ t p, (t < length m)%nat → aw_perfs aw !! t = Some p → m !! t = Some (h w aw t p)) (length (aw_perfs aw)) (before ws w) (wdp_perf W np saturations densities depth gravity per_cell w) (wdp ++ l)) as (s & -> & m & -> & Hm & Hml).
    + exists []. split; [by rewrite app_nil_r|]. split; [cbn; lia|]. cbn. intros; lia.
    + intros j s Hj (m & -> & Hm & Hml). destruct (lookup_lt_is_Some_2 (aw_perfs aw) (length m)) as [p Hp]; [lia|]. rewrite <- Hm. rewrite (Hperf w aw (length m) p _ Hw Hp). eexists. split; [done|]. exists (m ++ [h w aw (length m) p]).
      split; [by rewrite !app_assoc|]. rewrite app_length. split; [cbn; lia|]. intros t p' Ht Hp'. cbn in Ht. destruct (decide (t = length m)) as [->|Hne].
      * rewrite Hp in Hp'. injection Hp' as <-. by rewrite lookup_app_r, Nat.sub_diag by lia.
      * rewrite lookup_app_l by lia. apply Hml; [lia|done].
    + eexists. split; [done|]. exists (l ++ m). split; [done|]. split; [rewrite app_length, (before_S ws w aw Hw); lia|]. intros w' aw' t p Hw' Haw' Hp. pose proof (lookup_lt_Some _ _ _ Hp) as Htl. destruct (decide (w' = w)) as [->|Hne].
      * rewrite Hw in Haw'. injection Haw' as <-. rewrite lookup_app_r by lia. replace (before ws w + t - length l)%nat with t by lia. apply Hml; [lia|done].
      * pose proof (before_S ws w' aw' Haw'). pose proof (before_mono ws (w' + 1) w ltac:(lia)). rewrite lookup_app_l by lia. apply Hl; [lia|done|done].
  - exists l. split; [done|]. split; [done|]. intros w aw t p Hw Hp. cbn zeta. fold (sat w t p). rewrite (Hl w aw t p) by (try done; rewrite <- Hlen; by apply lookup_lt_Some in Hw). unfold h, dens. split.
    + intros Hne. by destruct (Req_EM_T _ _).
    + intros Hz0. f_equal. assert (sum_list (sat w t p) = 0) as Hs0 by (rewrite sum_list_val; apply rsum_zero; intros; apply Hz0). destruct (Req_EM_T _ _); [|done]. rewrite rsum_zero; [lra|]. intros q _. rewrite Hz0. lra.
Qed.

(** ** WellReport *)
(** The wells that inject have the composition of the first one. *)
Definition same_injection (qs : list (list R)) : Prop :=
  ∀ w aw q x aw0, ws !! w = Some aw → qs !! w = Some q → x ∈ q → 0 < x → ws !! 0%nat = Some aw0 → aw_frac aw !! 0%nat = aw_frac aw0 !! 0%nat.
Lemma report_ok nc (ff : nat → option R) (F : nat → R) qs time bhp data : (0 < w_np W)%nat → in_cells nc ws → rates_of ws qs → length bhp = length ws → same_injection qs →
  (∀ c, (c < nc)%nat → ff c = Some (F c)) → ∃ row, report_push W ff time bhp (concat qs) data = Some (data ++ [row]) ∧ row_of ws qs bhp time F row.
Proof using Hview H0.
  intros Hnp Hin HF Hbhp Hinj Hff. pose proof (ws_length W ws Hview) as Hlen. unfold report_push. rewrite decide_True by lia.
  match goal with |- context [for_loop (length bhp) 0 ?b _] => set (body := b) end. rewrite Hbhp, Hlen.
  assert (Hday : 1 / day ≠ 0) by (unfold day; lra).
  destruct (wells_loop W ws Hview (λ n row, length row = (1 + 3 * n)%nat ∧ row !! 0%nat = Some (time / 86400) ∧ ∀ w aw q p, (w < n)%nat → ws !! w = Some aw → qs !! w = Some q → bhp !! w = Some p →
    row !! (3 * w + 1)%nat = Some (p / 100000) ∧ row !! (3 * w + 2)%nat = Some (sum_list q * 86400) ∧ row !! (3 * w + 3)%nat = Some (cut_of aw q F)) body [time / day]) as (row & -> & R1 & R2 & R3).
  - split; [done|]. split; [done|]. intros; lia.
  - intros w aw row Hw (R1 & R2 & R3). unfold body. pose proof (lookup_lt_Some _ _ _ Hw) as Hwl. destruct (lookup_lt_is_Some_2 bhp w) as [p Hp]; [lia|]. rewrite Hp. cbn [mbind option_bind].
    destruct (well_range W ws Hview H0 w aw Hw) as (Hb & He & Hc). rewrite Hb, He. cbn [mbind option_bind]. replace (before ws w + length (aw_perfs aw) - before ws w)%nat with (length (aw_perfs aw)) by lia.
    destruct (Forall2_lookup_l _ _ _ _ _ HF Hw) as (q & Hq & Hql).
    assert (Hone : ∀ t pf x s, aw_perfs aw !! t = Some pf → q !! t = Some x → report_perf W (concat qs) ff (before ws w + t) s = Some (s.1 + x * 86400, s.2 + x * 86400 * (if Rlt_dec 0 x then val (aw_frac aw) 0 else F (pcell pf)))).
    { intros t pf x [T V] Hpf Hx. unfold report_perf. rewrite (rates_lookup ws qs w aw q t HF Hw Hq) by (by apply lookup_lt_Some in Hx). rewrite Hx. cbn [mbind option_bind fst snd]. rewrite rdiv_Some by done. cbn [mbind option_bind].
      assert (x / (1 / day) = x * 86400) as -> by (unfold day; field; lra). destruct (Rlt_dec 0 (x * 86400)) as [Hpos|Hneg].
      - destruct (Rlt_dec 0 x) as [Hpx|]; [|lra]. destruct (lookup_lt_is_Some_2 ws 0) as [aw0 Hw0]; [lia|]. destruct (well_facts W ws Hview 0 aw0 Hw0) as (_ & _ & _ & _ & _ & _ & _ & Hfr & _).
        pose proof (slice_lookup _ _ _ _ 0 Hfr Hnp) as Hf0. rewrite Nat.mul_0_r in Hf0. cbn [Nat.add] in Hf0. rewrite Hf0, <- (Hinj w aw q x aw0 Hw Hq (elem_of_list_lookup_2 _ _ _ Hx) Hpx Hw0).
        destruct (well_facts W ws Hview w aw Hw) as (_ & _ & _ & _ & _ & _ & _ & Hfr' & _). pose proof (slice_length _ _ _ _ Hfr') as Hfl. destruct (lookup_lt_is_Some_2 (aw_frac aw) 0) as [f Hf]; [lia|]. unfold val. rewrite Hf. done.
      - destruct (Rlt_dec 0 x) as [Hpx|]; [lra|]. rewrite (Hc t pf Hpf). cbn [mbind option_bind]. pose proof (Hin aw pf (elem_of_list_lookup_2 _ _ _ Hw) (elem_of_list_lookup_2 _ _ _ Hpf)) as [Hz0 Hz1].
        rewrite cell_ix_pos by done. cbn [mbind option_bind]. fold (pcell pf). rewrite Hff by (unfold pcell; lia). done. }
    destruct (over_loop ws w aw q (report_perf W (concat qs) ff) (λ s, s.2) (λ _, True) (λ c x, x * 86400 * (if Rlt_dec 0 x then val (aw_frac aw) 0 else F c)) (0, 0) Hw Hql I) as ([T V] & ET & _ & EV).
    { intros t pf x s Hpf Hx _. rewrite (Hone t pf x s Hpf Hx). eexists. split; [done|]. done. }
    destruct (over_loop ws w aw q (report_perf W (concat qs) ff) (λ s, s.1) (λ _, True) (λ c x, x * 86400) (0, 0) Hw Hql I) as ([T' V'] & ET' & _ & EV').
    { intros t pf x s Hpf Hx _. rewrite (Hone t pf x s Hpf Hx). eexists. split; [done|]. done. }
    rewrite ET in ET'. injection ET' as <- <-. cbn [fst snd] in EV, EV'. rewrite ET. cbn [mbind option_bind].
    assert (T = sum_list q * 86400) as ->.
    { rewrite EV'. unfold over, sum_list. rewrite Rplus_0_l. rewrite (rsum_ext _ (λ pq : Z * R * R, 86400 * pq.2)) by (intros; lra). rewrite rsum_scale, <- (rsum_map (λ x, x) (λ pq : Z * R * R, pq.2)).
      change (map (λ pq : Z * R * R, pq.2) (zip (aw_perfs aw) q)) with ((zip (aw_perfs aw) q).*2). rewrite snd_zip by lia. lra. }
    assert (V = water_of aw q F * 86400) as ->.
    { rewrite EV. unfold water_of, over. rewrite Rplus_0_l, Rmult_comm, <- rsum_scale. apply rsum_ext. intros; lra. }
    assert ((if Req_EM_T (sum_list q * 86400) 0 then Some 0 else rdiv (water_of aw q F * 86400) (sum_list q * 86400)) = Some (cut_of aw q F)) as ->.
    { unfold cut_of. destruct (Req_EM_T (sum_list q) 0) as [E|E]; destruct (Req_EM_T (sum_list q * 86400) 0) as [E'|E']; try done; try lra. rewrite rdiv_Some by done. f_equal. field. done. }
    cbn [mbind option_bind]. eexists. split; [done|]. rewrite app_length. cbn [length]. split; [lia|]. split; [by rewrite lookup_app_l by lia|]. intros w' aw' q' p' Hw' Haw' Hq' Hp'. destruct (decide (w' = w)) as [->|Hne].
    + rewrite Hw in Haw'. injection Haw' as <-. rewrite Hq in Hq'. injection Hq' as <-. rewrite Hp in Hp'. injection Hp' as <-. rewrite !lookup_app_r by lia. rewrite R1.
      replace (3 * w + 1 - (1 + 3 * w))%nat with 0%nat by lia. replace (3 * w + 2 - (1 + 3 * w))%nat with 1%nat by lia. replace (3 * w + 3 - (1 + 3 * w))%nat with 2%nat by lia. done.
    + rewrite !lookup_app_l by lia. apply R3; [lia|done|done|done].
  - cbn [mbind option_bind]. exists row. split; [done|]. split; [lia|]. split; [done|]. intros w aw q p Hw. apply R3; [|done]. rewrite <- Hlen. by apply lookup_lt_Some in Hw.
Qed.
(** C62: WellReport::push for two incompressible phases. *)
Theorem C62_report_incomp relperm nc visc sat qs time bhp data : w_np W = 2%nat → in_cells nc ws → rates_of ws qs → length bhp = length ws → same_injection qs →
  length sat = (nc * 2)%nat → (∀ s c, length (relperm s c) = 2%nat) → (∀ p, (p < 2)%nat → ∃ v, visc !! p = Some v ∧ v ≠ 0) → (∀ c, (c < nc)%nat → totmob relperm visc 2 sat c c ≠ 0) →
  ∃ row, report_push_incomp W relperm 2 visc sat time bhp (concat qs) data = Some (data ++ [row]) ∧ row_of ws qs bhp time (λ c, share relperm visc 2 sat c c 0) row.
Proof using Hview H0.
  intros Hnp Hin HF Hbhp Hinj Hs Hkr Hv HT. unfold report_push_incomp. rewrite decide_False by lia. apply (report_ok nc); try done; [lia|]. intros c Hc.
  rewrite slice_Some by (rewrite Hs; lia). fold (sats 2 sat c). cbn [mbind option_bind]. rewrite (first_share_ok 2 _ visc (val visc)); [done|by rewrite Hkr; lia| |by apply HT].
  intros p Hp. destruct (Hv p Hp) as (v & Hvp & Hnz). unfold val. by rewrite Hvp.
Qed.
(** C62: WellReport::push for black-oil fluids. *)
Theorem C62_report_blackoil relperm viscosity np nc p z s qs time bhp data : w_np W = np → (0 < np ≤ 3)%nat → in_cells nc ws → rates_of ws qs → length bhp = length ws → same_injection qs →
  length p = nc → length z = (nc * np)%nat → length s = (nc * np)%nat → (∀ s c, length (relperm s c) = np) →
  (∀ c q, (c < nc)%nat → (q < np)%nat → ∃ v, viscosity (val p c) (sats np z c) c !! q = Some v ∧ v ≠ 0) →
  (∀ c, (c < nc)%nat → totmob relperm (viscosity (val p c) (sats np z c) c) np s c c ≠ 0) →
  ∃ row, report_push_blackoil W relperm viscosity np p z s time bhp (concat qs) data = Some (data ++ [row]) ∧
    row_of ws qs bhp time (λ c, share relperm (viscosity (val p c) (sats np z c) c) np s c c 0) row.
Proof using Hview H0.
  intros Hnp Hnp3 Hin HF Hbhp Hinj Lp Lz Ls Hkr Hv HT. unfold report_push_blackoil. rewrite decide_False by lia. apply (report_ok nc); try done; [lia|]. intros c Hc.
  assert ((c + 1) * np ≤ nc * np)%nat by (apply Nat.mul_le_mono_r; lia).
  rewrite (slice_Some s) by (rewrite Ls; lia). fold (sats np s c). cbn [mbind option_bind]. destruct (lookup_lt_is_Some_2 p c) as [pc Hpc]; [lia|]. assert (val p c = pc) as Hvp by (unfold val; by rewrite Hpc). rewrite Hpc. cbn [mbind option_bind].
  rewrite (slice_Some z) by (rewrite Lz; lia). fold (sats np z c). cbn [mbind option_bind]. rewrite <- Hvp. rewrite (first_share_ok np _ _ (val (viscosity (val p c) (sats np z c) c))); [done|by rewrite Hkr; lia| |by apply HT].
  intros q Hq. destruct (Hv c q Hc Hq) as (v & Hvq & Hnz). unfold val at 2 4. by rewrite Hvq.
Qed.
End wells.
(** C62: a well that only injects or only produces has a water cut between 0 and
    1 if all fractions are. *)
Theorem C62_cut {N} (aw : @awell R N) q F : length q = length (aw_perfs aw) → 0 <= val (aw_frac aw) 0 <= 1 → (∀ p, p ∈ aw_perfs aw → 0 <= F (pcell p) <= 1) → (∀ x, x ∈ q → 0 <= x) ∨ (∀ x, x ∈ q → x <= 0) → 0 <= cut_of aw q F <= 1.
Proof.
  intros HL Hf HF Hq. unfold cut_of. destruct (Req_EM_T _ _) as [|Hne]; [lra|]. unfold water_of, over.
  assert (E : sum_list q = rsum (λ pq : Z * R * R, pq.2) (zip (aw_perfs aw) q)).
  { unfold sum_list. rewrite <- (rsum_map (λ x, x) (λ pq : Z * R * R, pq.2)). change (map (λ pq : Z * R * R, pq.2) (zip (aw_perfs aw) q)) with ((zip (aw_perfs aw) q).*2). by rewrite snd_zip by lia. }
  rewrite E in Hne |- *. set (wt := λ pq : Z * R * R, if Rlt_dec 0 pq.2 then val (aw_frac aw) 0 else F (pcell pq.1)).
  assert (Hwt : ∀ pq, pq ∈ zip (aw_perfs aw) q → 0 <= wt pq <= 1 ∧ pq.2 ∈ q). { intros [p x] Hp. split; [|by apply elem_of_zip_r in Hp]. unfold wt. cbn. destruct (Rlt_dec 0 x); [done|]. apply HF. by apply elem_of_zip_l in Hp. }
  rewrite (rsum_ext (λ pq : Z * R * R, pq.2 * (if Rlt_dec 0 pq.2 then val (aw_frac aw) 0 else F (pcell pq.1))) (λ pq, pq.2 * wt pq)) by done.
  clearbody wt. clear HL HF Hf E. revert Hwt Hne. generalize (zip (aw_perfs aw) q). intros l Hwt Hne.
  assert (G : (0 <= rsum (λ pq, pq.2 * wt pq) l <= rsum (λ pq, pq.2) l) ∨ (rsum (λ pq, pq.2) l <= rsum (λ pq, pq.2 * wt pq) l <= 0)).
  { destruct Hq as [Hq|Hq]; [left|right]; clear Hne; (induction l as [|pq l IH]; cbn [rsum]; [lra|]; destruct (Hwt pq ltac:(left)) as [H1 H2]; specialize (Hq _ H2) as H3; specialize (IH (λ x Hx, Hwt x (elem_of_list_further _ _ _ Hx))); nra). }
  set (S := rsum (λ pq, pq.2) l) in *. set (V := rsum (λ pq, pq.2 * wt pq) l) in *. destruct G as [G|G].
  - assert (0 < S) by lra. split; apply (Rmult_le_reg_r S); try lra; unfold Rdiv; rewrite Rmult_assoc, Rinv_l by done; lra.
  - assert (S < 0) by lra. assert (E : V / S * S = V) by (field; lra). set (X := V / S) in *. clearbody X S V. split.
    + destruct (Rle_or_lt 0 X); [done|]. nra.
    + destruct (Rle_or_lt X 1); [done|]. nra.
Qed.
Print Assumptions C62_source.
Print Assumptions C62_source_only.
Print Assumptions C62_source_total.
Print Assumptions C62_flow.
Print Assumptions C62_flow_total.
Print Assumptions C62_phase.
Print Assumptions C62_phase_total.
Print Assumptions C62_wdp.
Print Assumptions C62_report_incomp.
Print Assumptions C62_report_blackoil.
Print Assumptions C62_cut.
