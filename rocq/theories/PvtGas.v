(** Live gas, and all phases together (C65). *)
From Coq Require Import Reals Lra Psatz.
From Verif Require Import Base LoopModel LoopProof TableModel TofSpec MiscSpec UTableProof NTableProof NTableProps PhaseModel KrModel KrSpec KrProof KrProps PvtModel PvtSpec PvtProof PvtProps.
Local Open Scope R_scope.
Unset Default Proof Using.

(** ** Live gas *)
Lemma val_some (l : list R) i : (i < length l)%nat → l !! i = Some (val l i).
Proof. intros H. unfold val. by destruct (lookup_lt_is_Some_2 l i H) as [v ->]. Qed.
Lemma at_factor_lookup und item r k t a y : und !! k = Some t → t !! 0%nat = Some a → t !! item = Some y → at_factor und item r !! k = Some (through a y r).
Proof. intros Ht Ha Hy. unfold at_factor. rewrite list_lookup_fmap, Ht. cbn [fmap option_fmap option_map]. by rewrite Ha, Hy. Qed.

(** What miscible_gas computes. *)
Lemma gas_cases G ps bs ms rs pos z liq vap item p : live_tables G ps bs ms rs → volumes pos z liq vap → vap ≠ 0 → (item = 1 ∨ item = 2)%nat →
  let ys := at_factor (lv_und G) item (liq / vap) in let N := (length ps - 1)%nat in
  miscible_gas G pos p z item false = Some (if Rlt_dec (through ps rs p) (liq / vap) then through ps (item_of bs ms item) p
     else if Rlt_dec p (val ps 0) then val ys 0 else if Rlt_dec (val ps N) p then val ys N else through ps ys p) ∧
  miscible_gas G pos p z item true = (if Rlt_dec (through ps rs p) (liq / vap) then linear_derivative (length ps) ps (item_of bs ms item) p else linear_derivative (length ps) ps ys p).
Proof.
  intros HG [Vl Vv] Hv Hit ys N. pose proof HG as [E (L1 & L2 & L3 & L4) O (LU & FU)].
  assert (Hk : [ps; bs; ms; rs] !! item = Some (item_of bs ms item)) by (destruct Hit as [-> | ->]; done).
  assert (Lys : length ys = length ps) by (unfold ys, at_factor; by rewrite map_length).
  assert (HU : ∀ k, (k < length ps)%nat → ∃ t a, lv_und G !! k = Some t ∧ t !! 0%nat = Some a ∧ (2 ≤ length a)%nat ∧ interp t 0 item (liq / vap) = Some (val ys k)).
  { intros k Hk'. destruct (lookup_lt_is_Some_2 (lv_und G) k) as [t T]; [lia|]. pose proof (proj1 (Forall_lookup _ _) FU _ _ T) as GT.
    destruct (interp_und t item (liq / vap) GT Hit) as (a & y & σ & A & Y & La & Oa & Ly & Nn & I & _). exists t, a. split; [done|]. split; [done|]. split; [done|]. rewrite I. f_equal.
    pose proof (at_factor_lookup (lv_und G) item (liq / vap) k t a y T A Y) as EY. fold ys in EY. unfold val. by rewrite EY. }
  destruct (C28_index 1 ps p (val ps 0) (val ps N) (length ps) O ltac:(lia) (le_n _)) as (i & a & b & Ei & Ea & Eb & Hin & Hlo & Hhi).
  { rewrite head_lookup. apply val_some. lia. } { rewrite last_lookup. replace (pred (length ps)) with N by (unfold N; lia). apply val_some. unfold N. lia. }
  assert (HS : (S i < length ps)%nat) by (by eapply lookup_lt_Some).
  destruct (HU i ltac:(lia)) as (t0 & r0 & T0 & R0 & Lr0 & I0). destruct (HU (S i) ltac:(lia)) as (t1 & r1 & T1 & R1 & Lr1 & I1).
  destruct (HU 0%nat ltac:(lia)) as (tf & rf & Tf & Rf & Lrf & If). destruct (HU N ltac:(unfold N; lia)) as (tl & rl & Tl & Rl & Lrl & Il).
  pose proof (ordered_ne 1 ps i (S i) _ _ O ltac:(lia) Ea Eb) as Hab.
  destruct (linear_of_index (length ps) ps ys p i a b (val ys i) (val ys (S i)) Ei Ea Eb (val_some ys i ltac:(lia)) (val_some ys (S i) ltac:(lia)) Hab) as [EL ED].
  destruct (interp_sat G ps bs ms rs 3 rs p HG eq_refl) as (S1 & S2 & _). destruct (interp_sat G ps bs ms rs item (item_of bs ms item) p HG Hk) as (S3 & S4 & _).
  unfold miscible_gas. rewrite E. cbn [mbind option_bind lookup list_lookup]. rewrite Ei. cbn [mbind option_bind]. rewrite <- E, S1. cbn [mbind option_bind]. rewrite Vl, Vv. cbn [mbind option_bind]. rewrite (rdiv_Some liq vap) by done. cbn [mbind option_bind].
  destruct (Rlt_dec (through ps rs p) (liq / vap)) as [Hs|Hs]; [split; [exact S3|exact S4]|].
  rewrite T0. cbn [mbind option_bind]. rewrite R0. cbn [mbind option_bind]. rewrite Nat.add_1_r. split.
  - rewrite (val_some ps 0) by lia. cbn [mbind option_bind]. fold N. rewrite (val_some ps N) by (unfold N; lia). cbn [mbind option_bind].
    destruct (Rlt_dec p (val ps 0)) as [H0|H0].
    { rewrite (bool_decide_true (i = 0%nat)) by (apply Hlo; lra). cbn [andb]. rewrite Tf. cbn [mbind option_bind]. exact If. }
    rewrite andb_false_r. destruct (Rgt_dec p (val ps N)) as [H1|H1].
    { rewrite (bool_decide_true (S i = N)) by (assert (S (S i) = length ps) by (apply Hhi; lra); unfold N; lia). cbn [andb]. rewrite Tl. cbn [mbind option_bind]. destruct (Rlt_dec (val ps N) p); [exact Il|lra]. }
    rewrite andb_false_r. destruct (Rlt_dec (val ps N) p); [lra|]. rewrite Ea. cbn [mbind option_bind]. rewrite Eb. cbn [mbind option_bind]. rewrite (rdiv_Some _ (b - a)) by lra. cbn [mbind option_bind].
    rewrite decide_False by lia. rewrite I0. cbn [mbind option_bind]. rewrite T1. cbn [mbind option_bind]. rewrite I1. cbn [mbind option_bind]. f_equal.
    unfold through. rewrite EL. cbn. unfold line. field. lra.
  - rewrite Ea. cbn [mbind option_bind]. rewrite Eb. cbn [mbind option_bind]. rewrite decide_False by lia. rewrite I0. cbn [mbind option_bind]. rewrite T1. cbn [mbind option_bind]. rewrite I1. cbn [mbind option_bind]. rewrite rdiv_Some by lra. by rewrite ED.
Qed.
(** C65: B and viscosity of live gas are defined at all pressures; away from the dew
    point and the tabulated pressures, and within their range, miscible_gas with deriv is
    the derivative. *)
Theorem C65_gas_rate G ps bs ms rs pos z liq vap item p : live_tables G ps bs ms rs → volumes pos z liq vap → vap ≠ 0 → (item = 1 ∨ item = 2)%nat →
  (∀ q, is_Some (miscible_gas G pos q z item false)) ∧
  (p ∉ ps → through ps rs p < liq / vap ∨ liq / vap < through ps rs p ∧ val ps 0 < p < val ps (length ps - 1) →
   ∃ v d, miscible_gas G pos p z item true = Some d ∧ value_rate (λ q, miscible_gas G pos q z item false) p v d).
Proof.
  intros HG V Hv Hit. pose proof HG as [E (L1 & L2 & L3 & L4) O (LU & FU)].
  pose proof (λ q, gas_cases G ps bs ms rs pos z liq vap item q HG V Hv Hit) as HQ. cbv zeta in HQ. set (ys := at_factor (lv_und G) item (liq / vap)) in *. set (N := (length ps - 1)%nat) in *.
  assert (HD : ∀ q, is_Some (miscible_gas G pos q z item false)) by (intros q; destruct (HQ q) as [-> _]; eauto).
  split; [done|]. intros Hp Hc. assert (Hk : [ps; bs; ms; rs] !! item = Some (item_of bs ms item)) by (destruct Hit as [-> | ->]; done). destruct (interp_sat G ps bs ms rs item _ p HG Hk) as (_ & _ & Ly).
  assert (Lys : length ys = length ps) by (unfold ys, at_factor; by rewrite map_length).
  destruct (lin_rate 1 ps rs p O L1 L4 Hp) as (dr & _ & Hr). destruct (lin_rate 1 ps (item_of bs ms item) p O L1 Ly Hp) as (ds & Eds & Hds). destruct (lin_rate 1 ps ys p O L1 Lys Hp) as (du & Edu & Hdu).
  destruct Hc as [Hlt|(Hgt & Hp0 & Hp1)].
  - destruct (below ps rs p dr _ Hr Hlt) as (δ & Hδ & Hb). exists (through ps (item_of bs ms item) p), ds. destruct (HQ p) as [Ev ->]. destruct (Rlt_dec (through ps rs p) (liq / vap)); [|lra].
    split; [done|]. split; [exact Ev|]. split; [exists 1; split; [lra|]; done|].
    eapply (dl_local _ _ _ _ δ Hδ Hds). intros t Ht. destruct (HQ t) as [-> _]. specialize (Hb t Ht). destruct (Rlt_dec _ _); [done|lra].
  - destruct (above ps rs p dr _ Hr Hgt) as (δ & Hδ & Hb). exists (through ps ys p), du. destruct (HQ p) as [Ev ->]. destruct (Rlt_dec (through ps rs p) (liq / vap)); [lra|]. destruct (Rlt_dec p (val ps 0)); [lra|]. destruct (Rlt_dec (val ps N) p); [lra|].
    split; [done|]. split; [exact Ev|]. split; [exists 1; split; [lra|]; done|].
    set (δ' := Rmin δ (Rmin (p - val ps 0) (val ps N - p))). assert (Hδ' : 0 < δ') by (unfold δ'; repeat apply Rmin_glb_lt; lra).
    eapply (dl_local _ _ _ _ δ' Hδ' Hdu). intros t Ht. destruct (HQ t) as [-> _]. assert (Rabs (t - p) < δ) as H1 by (eapply Rlt_le_trans; [exact Ht|apply Rmin_l]).
    assert (Rabs (t - p) < p - val ps 0) as H2 by (eapply Rlt_le_trans; [exact Ht|]; eapply Rle_trans; [apply Rmin_r|apply Rmin_l]). assert (Rabs (t - p) < val ps N - p) as H3 by (eapply Rlt_le_trans; [exact Ht|]; eapply Rle_trans; [apply Rmin_r|apply Rmin_r]).
    apply Rabs_def2 in H2. apply Rabs_def2 in H3. specialize (Hb t H1). destruct (Rlt_dec (through ps rs t) _); [lra|]. destruct (Rlt_dec t (val ps 0)); [lra|]. destruct (Rlt_dec (val ps N) t); [lra|]. done.
Qed.
Print Assumptions C65_gas_rate.
(** C65: undersaturated gas: in pressure, the values that the tables of the two
    neighbouring pressures give at the present solution factor are interpolated; outside
    the tabulated pressures the end value is kept. *)
Theorem C65_gas_undersaturated G ps bs ms rs pos z liq vap item p k t a y : live_tables G ps bs ms rs → volumes pos z liq vap → vap ≠ 0 → (item = 1 ∨ item = 2)%nat →
  ps !! k = Some p → liq / vap <= through ps rs p → lv_und G !! k = Some t → t !! 0%nat = Some a → t !! item = Some y →
  miscible_gas G pos p z item false = Some (through a y (liq / vap)).
Proof.
  intros HG V Hv Hit Hp Hs Ht Ha Hy. pose proof HG as [E (L1 & L2 & L3 & L4) O (LU & FU)]. destruct (gas_cases G ps bs ms rs pos z liq vap item p HG V Hv Hit) as [-> _]. cbv zeta.
  set (ys := at_factor (lv_und G) item (liq / vap)). assert (Lys : length ys = length ps) by (unfold ys, at_factor; by rewrite map_length).
  destruct (Rlt_dec _ _); [lra|]. pose proof (lookup_lt_Some _ _ _ Hp) as Hk.
  assert (Hlo : val ps 0 <= p). { destruct (decide (k = 0%nat)) as [->|]; [unfold val; rewrite Hp; cbn; lra|]. pose proof (proj2 O 0%nat k _ _ ltac:(lia) (val_some ps 0 ltac:(lia)) Hp). lra. }
  assert (Hhi : p <= val ps (length ps - 1)). { destruct (decide (k = length ps - 1)%nat) as [->|]; [unfold val; rewrite Hp; cbn; lra|]. pose proof (proj2 O k (length ps - 1)%nat _ _ ltac:(lia) Hp (val_some ps (length ps - 1)%nat ltac:(lia))). lra. }
  destruct (Rlt_dec p (val ps 0)); [lra|]. destruct (Rlt_dec _ p); [lra|]. f_equal. unfold through at 1. rewrite (C28_nodes 1 ps ys (length ps) k p (through a y (liq / vap))); [done|done|lia|done|done|done|]. by apply (at_factor_lookup _ _ _ _ t).
Qed.
Print Assumptions C65_gas_undersaturated.
(** C65: dBdp of live gas is the derivative of B. *)
Theorem C65_gas_B G ps bs ms rs pos z liq vap p : live_tables G ps bs ms rs → volumes pos z liq vap →
  p ∉ ps → vap = 0 ∨ through ps rs p < liq / vap ∨ liq / vap < through ps rs p ∧ val ps 0 < p < val ps (length ps - 1) →
  ∃ v d, gas_dB G pos p z = Some (v, d) ∧ value_rate (λ q, gas_B G pos q z) p v d.
Proof.
  intros HG V Hp Hc. unfold gas_dB, gas_B. destruct V as [Vl Vv]. rewrite Vv. cbn [mbind option_bind]. destruct (Req_EM_T vap 0) as [H0|H0].
  - exists 1, 0. split; [done|]. split; [done|]. split; [exists 1; split; [lra|]; intros; eauto|]. apply (derivable_pt_lim_const 1).
  - destruct (C65_gas_rate G ps bs ms rs pos z liq vap 1 p HG (conj Vl Vv) H0 ltac:(by left)) as [_ H]. destruct (H Hp) as (v & d & Ed & HR); [by destruct Hc|]. exists v, d. split; [|exact HR]. destruct HR as [-> _]. cbn [mbind option_bind]. by rewrite Ed.
Qed.
Print Assumptions C65_gas_B.
(** C65: the solution factor of gas, as that of oil. *)
Theorem C65_gas_R G ps bs ms rs pos z liq vap p : live_tables G ps bs ms rs → volumes pos z liq vap → vap ≠ 0 →
  gas_R G pos p z = Some (if Req_EM_T liq 0 then 0 else Rmin (through ps rs p) (liq / vap)) ∧
  (p ∉ ps → through ps rs p ≠ liq / vap → ∃ v d, gas_dR G pos p z = Some (v, d) ∧ value_rate (λ q, gas_R G pos q z) p v d).
Proof.
  intros HG [Vl Vv] Hl. pose proof HG as [E (L1 & L2 & L3 & L4) O (LU & FU)].
  assert (HQ : ∀ q, gas_R G pos q z = Some (if Req_EM_T liq 0 then 0 else Rmin (through ps rs q) (liq / vap))).
  { intros q. unfold gas_R. rewrite Vl. cbn [mbind option_bind]. destruct (Req_EM_T liq 0); [done|]. destruct (interp_sat G ps bs ms rs 3 rs q HG eq_refl) as (-> & _). cbn [mbind option_bind]. rewrite Vv. cbn [mbind option_bind]. rewrite rdiv_Some by done. cbn [mbind option_bind].
    unfold Rmin. destruct (Rlt_dec _ _), (Rle_dec _ _); try done; try lra. f_equal. lra. }
  split; [done|]. intros Hp Hne. unfold gas_dR. rewrite Vl. cbn [mbind option_bind]. destruct (Req_EM_T liq 0) as [H0|H0].
  - exists 0, 0. split; [done|]. split; [by rewrite HQ|]. split; [exists 1; split; [lra|]; intros t _; rewrite HQ; eauto|]. eapply dl_ext; [apply (derivable_pt_lim_const 0)|]. intros t. by rewrite HQ.
  - destruct (interp_sat G ps bs ms rs 3 rs p HG eq_refl) as (-> & -> & _). cbn [mbind option_bind]. rewrite Vv. cbn [mbind option_bind]. rewrite rdiv_Some by done. cbn [mbind option_bind].
    destruct (lin_rate 1 ps rs p O L1 L4 Hp) as (dr & -> & Hr). cbn [mbind option_bind]. destruct (Rlt_dec (through ps rs p) (liq / vap)) as [Hlt|Hge].
    + destruct (below ps rs p dr _ Hr Hlt) as (δ & Hδ & Hb). exists (through ps rs p), dr. split; [done|]. split; [rewrite HQ; f_equal; unfold Rmin; destruct (Rle_dec _ _); lra|]. split; [exists 1; split; [lra|]; intros t _; rewrite HQ; eauto|].
      eapply (dl_local _ _ _ _ δ Hδ Hr). intros t Ht. rewrite HQ. cbn. specialize (Hb t Ht). unfold Rmin. destruct (Rle_dec _ _); lra.
    + destruct (above ps rs p dr (liq / vap) Hr) as (δ & Hδ & Hb); [lra|]. exists (liq / vap), 0. split; [done|]. split; [rewrite HQ; f_equal; unfold Rmin; destruct (Rle_dec _ _); lra|]. split; [exists 1; split; [lra|]; intros t _; rewrite HQ; eauto|].
      eapply (dl_local _ _ _ _ δ Hδ (derivable_pt_lim_const (liq / vap) p)). intros t Ht. rewrite HQ. cbn. specialize (Hb t Ht). unfold fct_cte, Rmin. destruct (Rle_dec _ _); lra.
Qed.
Print Assumptions C65_gas_R.

(** ** All phases *)
Lemma place_inj np i j a b : (a < np → b < np → np * i + a = np * j + b → i = j ∧ a = b)%nat.
Proof. intros Ha Hb H. split; [|assert (i = j) by nia; subst; lia]. nia. Qed.
Lemma spread_ok np ph n data out g : (ph < np)%nat → (np * n ≤ length out)%nat → (∀ i, (i < n)%nat → data !! i = Some (g i)) →
  ∃ o, spread np ph n data out = Some o ∧ length o = length out ∧ (∀ i, (i < n)%nat → o !! (np * i + ph)%nat = Some (g i)) ∧ ∀ k, (∀ i, (i < n)%nat → k ≠ (np * i + ph)%nat) → o !! k = out !! k.
Proof.
  intros Hph Hl Hd. unfold spread.
  destruct (for_loop_inv (λ m o, length o = length out ∧ (∀ i, (i < m)%nat → o !! (np * i + ph)%nat = Some (g i)) ∧ ∀ k, (∀ i, (i < m)%nat → k ≠ (np * i + ph)%nat) → o !! k = out !! k) n 0 (λ i out, v ← data !! i; upd out (np * i + ph) v) out) as (o & E & H).
  - split; [done|]. split; [intros; lia|done].
  - intros i o Hi (H1 & H2 & H3). assert (np * i + ph < length out)%nat by nia. rewrite Hd by lia. cbn [mbind option_bind]. rewrite upd_Some by lia. eexists. split; [done|]. split; [by rewrite insert_length|]. split.
    + intros j Hj. destruct (decide (j = i)) as [->|]; [by rewrite list_lookup_insert by lia|]. rewrite list_lookup_insert_ne by nia. apply H2. lia.
    + intros k Hk. rewrite list_lookup_insert_ne; [|intros <-; by apply (Hk i); [lia|]]. apply H3. intros j Hj. apply Hk. lia.
  - exists o. split; [done|]. exact H.
Qed.
Lemma resize_length n l : length (resize n l) = n.
Proof. unfold resize. rewrite app_length, take_length, replicate_length. lia. Qed.
Lemma bo_one_ok f g props pu n p z data1 out : (pu_num pu * n ≤ length out)%nat → (pu_num pu ≤ length props)%nat →
  (∀ ph x data, (ph < pu_num pu)%nat → props !! ph = Some x → length data = n → ∃ r, f x (pu_num pu) (pu_pos pu) n p z data = Some r ∧ length r = n ∧ ∀ i, (i < n)%nat → r !! i = Some (g ph i)) →
  ∃ d o, bo_one f props pu n p z data1 out = Some (d, o) ∧ length o = length out ∧ (∀ ph i, (ph < pu_num pu)%nat → (i < n)%nat → o !! (pu_num pu * i + ph)%nat = Some (g ph i)) ∧ ∀ k, (pu_num pu * n ≤ k)%nat → o !! k = out !! k.
Proof.
  intros Hl Hp Hf. unfold bo_one. set (np := pu_num pu) in *.
  destruct (for_loop_inv (λ m st, length st.1 = n ∧ length st.2 = length out ∧ (∀ ph i, (ph < m)%nat → (i < n)%nat → st.2 !! (np * i + ph)%nat = Some (g ph i)) ∧ ∀ k, (np * n ≤ k)%nat → st.2 !! k = out !! k) np 0
    (λ phase '(data1, out), x ← props !! phase; data1 ← f x np (pu_pos pu) n p z data1; out ← spread np phase n data1 out; Some (data1, out)) (resize n data1, out)) as ([d o] & E & H).
  - cbn. split; [apply resize_length|]. split; [done|]. split; [intros; lia|done].
  - intros m [d o] Hm (H1 & H2 & H3 & H4). cbn [fst snd] in *. destruct (lookup_lt_is_Some_2 props m) as [x Hx]; [lia|]. rewrite Hx. cbn [mbind option_bind]. destruct (Hf m x d ltac:(lia) Hx H1) as (r & -> & Lr & Vr). cbn [mbind option_bind].
    destruct (spread_ok np m n r o (g m) ltac:(lia) ltac:(lia) Vr) as (o' & -> & Lo & Vo & Ro). cbn [mbind option_bind]. eexists. split; [done|]. cbn [fst snd]. split; [done|]. split; [lia|]. split.
    + intros ph i Hph Hi. destruct (decide (ph = m)) as [->|]; [by apply Vo|]. rewrite Ro; [apply H3; lia|]. intros j Hj Heq. apply place_inj in Heq; lia.
    + intros k Hk. rewrite Ro; [by apply H4|]. intros j Hj ->. nia.
  - exists d, o. split; [exact E|]. apply H.
Qed.
Lemma bo_two_ok f g h props pu n p z data1 data2 o1 o2 : (pu_num pu * n ≤ length o1)%nat → (pu_num pu * n ≤ length o2)%nat → (pu_num pu ≤ length props)%nat →
  (∀ ph x d1 d2, (ph < pu_num pu)%nat → props !! ph = Some x → length d1 = n → length d2 = n → ∃ r s, f x (pu_num pu) (pu_pos pu) n p z d1 d2 = Some (r, s) ∧ length r = n ∧ length s = n ∧ ∀ i, (i < n)%nat → r !! i = Some (g ph i) ∧ s !! i = Some (h ph i)) →
  ∃ d q1 q2, bo_two f props pu n p z data1 data2 o1 o2 = Some (d, (q1, q2)) ∧ length q1 = length o1 ∧ length q2 = length o2 ∧
    (∀ ph i, (ph < pu_num pu)%nat → (i < n)%nat → q1 !! (pu_num pu * i + ph)%nat = Some (g ph i) ∧ q2 !! (pu_num pu * i + ph)%nat = Some (h ph i)) ∧ ∀ k, (pu_num pu * n ≤ k)%nat → q1 !! k = o1 !! k ∧ q2 !! k = o2 !! k.
Proof.
  intros Hl1 Hl2 Hp Hf. unfold bo_two. set (np := pu_num pu) in *.
  destruct (for_loop_inv (λ m (st : list R * list R * (list R * list R)), length st.1.1 = n ∧ length st.1.2 = n ∧ length st.2.1 = length o1 ∧ length st.2.2 = length o2 ∧
      (∀ ph i, (ph < m)%nat → (i < n)%nat → st.2.1 !! (np * i + ph)%nat = Some (g ph i) ∧ st.2.2 !! (np * i + ph)%nat = Some (h ph i)) ∧ ∀ k, (np * n ≤ k)%nat → st.2.1 !! k = o1 !! k ∧ st.2.2 !! k = o2 !! k) np 0
    (λ phase '(data1, data2, (out1, out2)), x ← props !! phase; '(data1, data2) ← f x np (pu_pos pu) n p z data1 data2; out1 ← spread np phase n data1 out1; out2 ← spread np phase n data2 out2; Some (data1, data2, (out1, out2)))
    (resize n data1, resize n data2, (o1, o2))) as ([d [q1 q2]] & E & H).
  - cbn. split; [apply resize_length|]. split; [apply resize_length|]. split; [done|]. split; [done|]. split; [intros; lia|done].
  - intros m [[d1 d2] [q1 q2]] Hm (H1 & H1' & H2 & H2' & H3 & H4). cbn [fst snd] in *. destruct (lookup_lt_is_Some_2 props m) as [x Hx]; [lia|]. rewrite Hx. cbn [mbind option_bind]. destruct (Hf m x d1 d2 ltac:(lia) Hx H1 H1') as (r & s & -> & Lr & Ls & Vr). cbn [mbind option_bind].
    destruct (spread_ok np m n r q1 (g m) ltac:(lia) ltac:(lia) (λ i Hi, proj1 (Vr i Hi))) as (o' & -> & Lo & Vo & Ro). cbn [mbind option_bind].
    destruct (spread_ok np m n s q2 (h m) ltac:(lia) ltac:(lia) (λ i Hi, proj2 (Vr i Hi))) as (o'' & -> & Lo' & Vo' & Ro'). cbn [mbind option_bind].
    eexists. split; [done|]. cbn [fst snd]. split; [done|]. split; [done|]. split; [lia|]. split; [lia|]. split.
    + intros ph i Hph Hi. destruct (decide (ph = m)) as [->|]; [split; [by apply Vo|by apply Vo']|]. rewrite Ro, Ro'; [apply H3; lia| |]; intros j Hj Heq; apply place_inj in Heq; lia.
    + intros k Hk. rewrite Ro, Ro'; [by apply H4| |]; intros j Hj ->; nia.
  - exists d, q1, q2. split; [exact E|]. cbn [fst snd] in H. destruct H as (_ & _ & H). exact H.
Qed.

(** C65: BlackoilPvtProperties: for each point i and phase ph the value of this phase at
    this point stands at place np*i + ph; what lies behind is kept. *)
Theorem C65_blackoil props pu n p z data1 out at_ f : f = pvt_mu ∧ at_ = mu_at ∨ f = pvt_B ∧ at_ = B_at ∨ f = pvt_R ∧ at_ = R_at →
  let np := pu_num pu in (np * n ≤ length out)%nat → (np ≤ length props)%nat → (n ≤ length p)%nat →
  (∀ ph x i q, (ph < np)%nat → props !! ph = Some x → (i < n)%nat → p !! i = Some q → is_Some (at_ x (pu_pos pu) q (drop (np * i) z))) →
  ∃ d o, bo_one f props pu n p z data1 out = Some (d, o) ∧ length o = length out ∧
    (∀ ph x i q, (ph < np)%nat → props !! ph = Some x → (i < n)%nat → p !! i = Some q → o !! (np * i + ph)%nat = at_ x (pu_pos pu) q (drop (np * i) z)) ∧
    ∀ k, (np * n ≤ k)%nat → o !! k = out !! k.
Proof.
  intros Hfa np Hl Hp Hn Hd.
  set (g := λ ph i, default 0 (x ← props !! ph; q ← p !! i; at_ x (pu_pos pu) q (drop (np * i) z))).
  destruct (bo_one_ok f g props pu n p z data1 out Hl Hp) as (d & o & E & Lo & Vo & Ro).
  - intros ph x data Hph Hx Hlen.
    assert (HE : f x (pu_num pu) (pu_pos pu) n p z data = each n (λ i, q ← p !! i; at_ x (pu_pos pu) q (drop (np * i) z)) data ∨ (∃ c, ∀ i q, (i < n)%nat → p !! i = Some q → at_ x (pu_pos pu) q (drop (np * i) z) = Some c) ∧ ∃ F, f x (pu_num pu) (pu_pos pu) n p z data = each n F data ∧ ∀ i q, (i < n)%nat → p !! i = Some q → F i = at_ x (pu_pos pu) q (drop (np * i) z)).
    { destruct Hfa as [[-> ->]|[[-> ->]|[-> ->]]]; destruct x; try (left; reflexivity).
      - destruct (Req_EM_T (cc_vcomp c) 0) as [H0|H0].
        + right. split; [exists (cc_visc c); intros; cbn; unfold cc_mu; by destruct (Req_EM_T _ _)|]. eexists. split; [reflexivity|]. intros i q Hi Hq. cbn. unfold cc_mu. by destruct (Req_EM_T _ _).
        + left. unfold pvt_mu. destruct (Req_EM_T _ _); [done|]. reflexivity.
      - destruct (Req_EM_T (cc_comp c) 0) as [H0|H0].
        + right. split; [exists (cc_refB c); intros; cbn; unfold cc_B; by destruct (Req_EM_T _ _)|]. eexists. split; [reflexivity|]. intros i q Hi Hq. cbn. unfold cc_B. by destruct (Req_EM_T _ _).
        + left. unfold pvt_B. destruct (Req_EM_T _ _); [done|]. reflexivity.
      - right. split; [exists 0; done|]. eexists. split; [reflexivity|]. done.
      - right. split; [exists 0; done|]. eexists. split; [reflexivity|]. done. }
    assert (HF : ∃ F, f x (pu_num pu) (pu_pos pu) n p z data = each n F data ∧ ∀ i q, (i < n)%nat → p !! i = Some q → F i = at_ x (pu_pos pu) q (drop (np * i) z)).
    { destruct HE as [HE|[_ HE]]; [|exact HE]. eexists. split; [exact HE|]. intros i q Hi Hq. cbn. by rewrite Hq. }
    destruct HF as (F & -> & HF). destruct (each_ok n F (g ph) data ltac:(lia)) as (r & -> & Lr & Vr & _); [|exists r; split; [done|]; split; [lia|done]].
    intros i Hi. destruct (lookup_lt_is_Some_2 p i) as [q Hq]; [lia|]. rewrite (HF i q Hi Hq). destruct (Hd ph x i q Hph Hx Hi Hq) as [v Hv]. unfold g. rewrite Hx, Hq. cbn [mbind option_bind]. by rewrite Hv.
  - exists d, o. split; [done|]. split; [done|]. split; [|done]. intros ph x i q Hph Hx Hi Hq. etransitivity; [exact (Vo ph i Hph Hi)|]. unfold g. rewrite Hx, Hq. cbn [mbind option_bind]. by destruct (Hd ph x i q Hph Hx Hi Hq) as [v ->].
Qed.
Print Assumptions C65_blackoil.
(** C65: the same with derivatives. *)
Theorem C65_blackoil_derivatives props pu n p z data1 data2 o1 o2 at_ f : f = pvt_dBdp ∧ at_ = dB_at ∨ f = pvt_dRdp ∧ at_ = dR_at →
  let np := pu_num pu in (np * n ≤ length o1)%nat → (np * n ≤ length o2)%nat → (np ≤ length props)%nat → (n ≤ length p)%nat →
  (∀ ph x i q, (ph < np)%nat → props !! ph = Some x → (i < n)%nat → p !! i = Some q → is_Some (at_ x (pu_pos pu) q (drop (np * i) z))) →
  ∃ d q1 q2, bo_two f props pu n p z data1 data2 o1 o2 = Some (d, (q1, q2)) ∧ length q1 = length o1 ∧ length q2 = length o2 ∧
    (∀ ph x i q, (ph < np)%nat → props !! ph = Some x → (i < n)%nat → p !! i = Some q →
       ∃ v w, at_ x (pu_pos pu) q (drop (np * i) z) = Some (v, w) ∧ q1 !! (np * i + ph)%nat = Some v ∧ q2 !! (np * i + ph)%nat = Some w) ∧
    ∀ k, (np * n ≤ k)%nat → q1 !! k = o1 !! k ∧ q2 !! k = o2 !! k.
Proof.
  intros Hfa np Hl1 Hl2 Hp Hn Hd.
  set (gh := λ ph i, default (0, 0) (x ← props !! ph; q ← p !! i; at_ x (pu_pos pu) q (drop (np * i) z))).
  destruct (bo_two_ok f (λ ph i, fst (gh ph i)) (λ ph i, snd (gh ph i)) props pu n p z data1 data2 o1 o2 Hl1 Hl2 Hp) as (d & q1 & q2 & E & L1 & L2 & Vo & Ro).
  - intros ph x d1 d2 Hph Hx Hd1 Hd2.
    assert (HV : ∀ i, (i < n)%nat → ∃ q, p !! i = Some q ∧ at_ x (pu_pos pu) q (drop (np * i) z) = Some (fst (gh ph i), snd (gh ph i))).
    { intros i Hi. destruct (lookup_lt_is_Some_2 p i) as [q Hq]; [lia|]. exists q. split; [done|]. destruct (Hd ph x i q Hph Hx Hi Hq) as [[v w] Hv]. unfold gh. rewrite Hx, Hq. cbn [mbind option_bind]. by rewrite Hv. }
    assert (HF : (∃ F, f x (pu_num pu) (pu_pos pu) n p z d1 d2 = each2 n F d1 d2 ∧ ∀ i q, (i < n)%nat → p !! i = Some q → F i = at_ x (pu_pos pu) q (drop (np * i) z)) ∨ ∃ D, x = PDead D ∧ f = pvt_dBdp ∧ at_ = dB_at).
    { destruct Hfa as [[-> ->]|[-> ->]]; destruct x; try (left; eexists; split; [reflexivity|]; intros i q Hi Hq; cbn; rewrite ?Hq; done).
      - left. eexists. split; [reflexivity|]. intros i q Hi Hq. cbn. unfold cc_dB. rewrite Hq. destruct (Req_EM_T _ _); done.
      - right. eauto. }
    destruct HF as [(F & -> & HF)|(D & -> & -> & ->)].
    + destruct (each2_ok n F (λ i, fst (gh ph i)) (λ i, snd (gh ph i)) d1 d2 ltac:(lia) ltac:(lia)) as (r1 & r2 & -> & (La & Va & _) & (Lb & Vb & _)).
      { intros i Hi. destruct (HV i Hi) as (q & Hq & Ev). by rewrite (HF i q Hi Hq). }
      exists r1, r2. split; [done|]. split; [lia|]. split; [lia|]. intros i Hi. split; [by apply Va|by apply Vb].
    + cbn [pvt_dBdp]. unfold dd_dBdp.
      assert (HW : ∀ i, (i < n)%nat → ∃ q s, p !! i = Some q ∧ dd_B D q = Some (fst (gh ph i)) ∧ td (dd_inv D) q = Some s ∧ - fst (gh ph i) * fst (gh ph i) * s = snd (gh ph i)).
      { intros i Hi. destruct (HV i Hi) as (q & Hq & Ev). cbn in Ev. exists q. destruct (dd_B D q) as [b|]; [|done]. cbn [mbind option_bind] in Ev. destruct (td (dd_inv D) q) as [s|]; [|done]. cbn [mbind option_bind] in Ev. exists s. injection Ev as E1 E2. rewrite <- E1, <- E2. done. }
      destruct (each_ok n (λ i, x ← p !! i; dd_B D x) (λ i, fst (gh ph i)) d1 ltac:(lia)) as (r1 & -> & La & Va & _). { intros i Hi. destruct (HW i Hi) as (q & s & -> & E1 & _). done. }
      cbn [mbind option_bind]. destruct (each_ok n (λ i, b ← r1 !! i; x ← p !! i; s ← td (dd_inv D) x; Some (- b * b * s)) (λ i, snd (gh ph i)) d2 ltac:(lia)) as (r2 & -> & Lb & Vb & _).
      { intros i Hi. destruct (HW i Hi) as (q & s & Hq & E1 & E2 & E3). rewrite (Va i Hi), Hq. cbn [mbind option_bind]. rewrite E2. cbn [mbind option_bind]. by rewrite E3. }
      exists r1, r2. split; [done|]. split; [lia|]. split; [lia|]. intros i Hi. split; [by apply Va|by apply Vb].
  - exists d, q1, q2. split; [done|]. split; [done|]. split; [done|]. split; [|done]. intros ph x i q Hph Hx Hi Hq. destruct (Vo ph i Hph Hi) as [V1 V2]. destruct (Hd ph x i q Hph Hx Hi Hq) as [[v w] Hv]. exists v, w. split; [done|].
    unfold gh in V1, V2. rewrite Hx, Hq in V1, V2. cbn [mbind option_bind] in V1, V2. rewrite Hv in V1, V2. split; [exact V1|exact V2].
Qed.
Print Assumptions C65_blackoil_derivatives.
