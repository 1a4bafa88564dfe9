(** C47: volumes, mobilities and transport sources. *)
From Coq Require Import Reals Lra Psatz.
From Verif Require Import Base LoopModel LoopProof CsrSpec CsrProof TofSpec AccModel AccProof TableModel GridModel WellsModel MiscModel MiscSpec.
Unset Default Proof Using.
Local Open Scope R_scope.

(** ** Lemmas *)
Lemma val_Some l i : (i < length l)%nat → l !! i = Some (val l i).
Proof. intros H. unfold val. destruct (lookup_lt_is_Some_2 l i H) as [x ->]. done. Qed.
Lemma val_eq l i x : l !! i = Some x → val l i = x.
Proof. unfold val. by intros ->. Qed.
Lemma rsum_ext {A} (h k : A → R) l : (∀ x, x ∈ l → h x = k x) → rsum h l = rsum k l.
Proof. induction l as [|x l IH]; intros H; simpl; [done|]. rewrite (H x) by left. rewrite IH; [done|]. intros y Hy. apply H. by right. Qed.
Lemma zeros_ok n vol : (n <= length vol)%nat → ∃ v, for_loop n 0 (λ p vol, upd vol p 0) vol = Some v ∧ length v = length vol ∧ ∀ i, v !! i = if decide (i < n)%nat then Some 0 else vol !! i.
Proof.
  intros H. destruct (for_loop_inv (λ k v, length v = length vol ∧ ∀ i, v !! i = if decide (i < k)%nat then Some 0 else vol !! i) n 0 (λ p vol, upd vol p 0) vol) as (v & E & L & Hv).
  - split; [done|]. intros i. by rewrite decide_False by lia.
  - intros k v Hk [L Hv]. rewrite upd_Some by lia. eexists. split; [done|]. split; [by rewrite insert_length|]. intros i.
    destruct (decide (i = k)) as [->|Hn].
    + rewrite list_lookup_insert by lia. by rewrite decide_True by lia.
    + rewrite list_lookup_insert_ne by done. rewrite Hv. destruct (decide (i < k)%nat); [by rewrite decide_True by lia|by rewrite decide_False by lia].
  - by exists v.
Qed.
Lemma acc_loop n (f : nat → list R → option (list R)) (kv : nat → list (nat * R)) s :
  (∀ i s, (i < n)%nat → f i s = accs s (kv i)) → for_loop n 0 f s = accs s (concat (map kv (seq 0 n))).
Proof. intros H. rewrite for_loop_run. apply run_accs. intros a t Ha. apply H. apply elem_of_seq in Ha. lia. Qed.
Definition ones (n : nat) (h : nat → R) : list (nat * R) := concat (map (λ p, [(p, h p)]) (seq 0 n)).
Lemma ones_elem n h k v : (k, v) ∈ ones n h → (k < n)%nat ∧ v = h k.
Proof.
  unfold ones. intros H. apply elem_of_list_In, in_concat in H as (l & Hl & Hk). apply in_map_iff in Hl as (p & <- & Hp). apply in_seq in Hp.
  destruct Hk as [Hk|[]]. injection Hk as <- <-. split; [lia|done].
Qed.
Lemma tally_ones n h i : tally (ones n h) i = if decide (i < n)%nat then h i else 0.
Proof.
  unfold ones. rewrite tally_concat. rewrite (rsum_ext _ (λ p, if decide (p = i) then h p else 0)).
  2: { intros p _. rewrite tally_cons, tally_nil. case_decide; lra. }
  case_decide.
  - apply rsum_single; [apply NoDup_seq|]. apply elem_of_seq. lia.
  - apply rsum_zero. intros p Hp. apply elem_of_seq in Hp. rewrite decide_False by lia. done.
Qed.
Lemma rsum_seq_S h n : rsum h (seq 0 (n + 1)) = rsum h (seq 0 n) + h n.
Proof. rewrite seq_app, rsum_app. simpl. lra. Qed.
Lemma rsum_swap {A B} (h : A → B → R) l m : rsum (λ a, rsum (h a) m) l = rsum (λ b, rsum (λ a, h a b) l) m.
Proof.
  induction l as [|a l IH]; simpl.
  - symmetry. by apply rsum_zero.
  - rewrite IH. by rewrite rsum_plus.
Qed.
Lemma rsum_div {A} (h : A → R) a l : rsum (λ x, h x / a) l = rsum h l / a.
Proof. unfold Rdiv. rewrite (rsum_ext _ (λ x, / a * h x)) by (intros; lra). rewrite rsum_scale. lra. Qed.

(** ** Volumes *)
Section sat.
Variables (np : nat) (pv s : list R).
Hypothesis Hpv : length pv ≠ 0%nat.
Hypothesis Hs : length s = (length pv * np)%nat.
Lemma np_eq : (length s / length pv)%nat = np.
Proof using Hpv Hs. rewrite Hs, Nat.mul_comm. by apply Nat.div_mul. Qed.
Definition sat_kv (c : nat) : list (nat * R) := ones np (λ p, val pv c * val s (np * c + p)).
Lemma sat_index c p : (c < length pv)%nat → (p < np)%nat → (np * c + p < length s)%nat.
Proof using Hs. clear Hpv. intros. rewrite Hs. nia. Qed.
Lemma sat_cell_accs c vol : (c < length pv)%nat → sat_cell np pv s c vol = accs vol (sat_kv c).
Proof using Hs.
  intros Hc. unfold sat_cell, sat_kv, ones. apply acc_loop. intros p t Hp. rewrite (val_Some pv c) by done. cbn [mbind option_bind].
  rewrite (val_Some s (np * c + p)) by (by apply sat_index). cbn [mbind option_bind accs fst snd]. by destruct (addto _ _ _).
Qed.
Lemma sat_tally k p : (k <= length pv)%nat → (p < np)%nat → tally (concat (map sat_kv (seq 0 k))) p = rsum (λ c, val pv c * val s (np * c + p)) (seq 0 k).
Proof using. clear Hpv Hs. intros _ Hp. rewrite tally_concat. apply rsum_ext. intros c _. unfold sat_kv. rewrite tally_ones. by rewrite decide_True. Qed.
Lemma sat_tally_out k p : ¬ (p < np)%nat → tally (concat (map sat_kv (seq 0 k))) p = 0.
Proof using. clear Hpv Hs. intros Hp. rewrite tally_concat. apply rsum_zero. intros c _. unfold sat_kv. rewrite tally_ones. by rewrite decide_False. Qed.
Lemma sat_elem k kk v : (kk, v) ∈ concat (map sat_kv (seq 0 k)) → (kk < np)%nat.
Proof using. clear Hpv Hs. intros H. apply elem_of_list_In, in_concat in H as (l & Hl & Hk). apply in_map_iff in Hl as (c & <- & _). apply elem_of_list_In, ones_elem in Hk. lia. Qed.

(** computeSaturatedVol: the volume of each phase. *)
Theorem C47_saturated sat_vol : (np <= length sat_vol)%nat →
  ∃ vol, compute_saturated_vol pv s sat_vol = Some vol ∧ length vol = length sat_vol ∧
    (∀ p, (p < np)%nat → vol !! p = Some (volume np pv s p)) ∧ ∀ p, (np <= p)%nat → vol !! p = sat_vol !! p.
Proof using Hpv Hs.
  intros Hv. unfold compute_saturated_vol. rewrite decide_False by done. rewrite np_eq. rewrite decide_True by done.
  destruct (zeros_ok np sat_vol Hv) as (v & -> & Lv & Hz). cbn [mbind option_bind].
  rewrite (acc_loop _ _ sat_kv) by (intros; by apply sat_cell_accs).
  destruct (accs_ok v (concat (map sat_kv (seq 0 (length pv))))) as [vol E]. { intros k x Hk. apply sat_elem in Hk. lia. }
  exists vol. split; [done|]. apply accs_inv in E as [L H]. split; [lia|]. split; intros p Hp; rewrite H, Hz.
  - rewrite decide_True by done. cbn. rewrite sat_tally by (done || lia). unfold volume. f_equal. lra.
  - rewrite decide_False by lia. destruct (sat_vol !! p); [|done]. cbn. rewrite sat_tally_out by lia. f_equal. lra.
Qed.

(** computeAverageSat: the volumes divided by the whole. *)
Theorem C47_average aver_sat : (np <= length aver_sat)%nat → total pv ≠ 0 →
  ∃ av, compute_average_sat pv s aver_sat = Some av ∧ length av = length aver_sat ∧
    (∀ p, (p < np)%nat → av !! p = Some (volume np pv s p / total pv)) ∧ ∀ p, (np <= p)%nat → av !! p = aver_sat !! p.
Proof using Hpv Hs.
  intros Hv Ht. unfold compute_average_sat. rewrite decide_False by done. rewrite np_eq. rewrite decide_True by done.
  destruct (zeros_ok np aver_sat Hv) as (v & -> & Lv & Hz). cbn [mbind option_bind].
  destruct (for_loop_inv (λ k '(tot, vol), tot = rsum (val pv) (seq 0 k) ∧ (k <= length pv → accs v (concat (map sat_kv (seq 0 k))) = Some vol)%nat) (length pv) 0
    (λ c '(tot, vol), v ← pv !! c; vol ← sat_cell np pv s c vol; Some (tot + v, vol)) (0, v)) as ([tot vol] & E & Htot & Hacc).
  { by split. }
  { intros k [tot vol] Hk [-> Hacc]. specialize (Hacc ltac:(lia)). rewrite (val_Some pv k) by lia. cbn [mbind option_bind]. rewrite sat_cell_accs by lia.
    destruct (accs_ok vol (sat_kv k)) as [vol' E']. { intros kk x Hkk. apply ones_elem in Hkk. apply accs_inv in Hacc as [-> _]. lia. }
    rewrite E'. cbn [mbind option_bind]. eexists. split; [done|]. split; [by rewrite rsum_seq_S|]. intros _.
    rewrite seq_app, map_app, concat_app, accs_app, Hacc. cbn [mbind option_bind]. cbn. by rewrite app_nil_r. }
  rewrite E. cbn [mbind option_bind Nat.add] in *. specialize (Hacc ltac:(lia)). apply accs_inv in Hacc as [L H]. subst tot. fold (total pv).
  destruct (for_loop_inv (λ k v', length v' = length vol ∧ ∀ i, v' !! i = if decide (i < k)%nat then (λ x, x / total pv) <$> vol !! i else vol !! i) np 0
    (λ p vol, x ← vol !! p; q ← rdiv x (total pv); upd vol p q) vol) as (av & Ea & La & Ha).
  { split; [done|]. intros i. by rewrite decide_False by lia. }
  { intros k v' Hk [L' H']. destruct (lookup_lt_is_Some_2 vol k) as [x Ex]; [lia|]. pose proof (H' k) as Hk'. rewrite decide_False in Hk' by lia. rewrite Hk', Ex. cbn [mbind option_bind].
    unfold rdiv. destruct (Req_EM_T _ _); [done|]. cbn [mbind option_bind]. rewrite upd_Some by lia. eexists. split; [done|]. split; [by rewrite insert_length|]. intros i.
    destruct (decide (i = k)) as [->|Hn].
    - rewrite list_lookup_insert by lia. rewrite decide_True by lia. by rewrite Ex.
    - rewrite list_lookup_insert_ne by done. rewrite H'. destruct (decide (i < k)%nat); [by rewrite decide_True by lia|by rewrite decide_False by lia]. }
  exists av. split; [done|]. split; [lia|]. cbn [Nat.add] in Ha. split; intros p Hp; rewrite Ha, H, Hz.
  - rewrite !decide_True by done. cbn. rewrite sat_tally by (done || lia). unfold volume. do 2 f_equal. lra.
  - rewrite !decide_False by lia. destruct (aver_sat !! p); [|done]. cbn. rewrite sat_tally_out by lia. f_equal. lra.
Qed.
(** Saturations that fill every cell fill the whole on average. *)
Theorem C47_average_unit : (∀ c, (c < length pv)%nat → rsum (λ p, val s (np * c + p)) (seq 0 np) = 1) → total pv ≠ 0 →
  rsum (λ p, volume np pv s p / total pv) (seq 0 np) = 1.
Proof using.
  clear. intros H Ht. rewrite rsum_div. unfold volume. rewrite rsum_swap.
  rewrite (rsum_ext _ (val pv)). 2: { intros c Hc. apply elem_of_seq in Hc. rewrite rsum_scale, H by lia. lra. }
  fold (total pv). by field.
Qed.
(** An average lies between the bounds of what is averaged. *)
Theorem C47_average_bounds lo hi p : (∀ c, (c < length pv)%nat → 0 <= val pv c ∧ lo <= val s (np * c + p) <= hi) → 0 < total pv →
  lo <= volume np pv s p / total pv <= hi.
Proof using.
  clear. intros H Ht.
  assert (lo * total pv <= volume np pv s p). { unfold total, volume. rewrite <- rsum_scale. apply rsum_le. intros c Hc. apply elem_of_seq in Hc. destruct (H c) as [? ?]; [lia|]. nra. }
  assert (volume np pv s p <= hi * total pv). { unfold total, volume. rewrite <- rsum_scale. apply rsum_le. intros c Hc. apply elem_of_seq in Hc. destruct (H c) as [? ?]; [lia|]. nra. }
  split; apply (Rmult_le_reg_r (total pv)); try done; unfold Rdiv; rewrite Rmult_assoc, Rinv_l by lra; lra.
Qed.
End sat.
Print Assumptions C47_saturated.
Print Assumptions C47_average.
Print Assumptions C47_average_unit.
Print Assumptions C47_average_bounds.

(** ** Mobilities *)
Section mobs.
Variable relperm : list R → nat → list R.
Variable visc : list R.
Variable np : nat.
Hypothesis Hkr : ∀ sat c, length (relperm sat c) = np.
Hypothesis Hvisc : ∀ p, (p < np)%nat → ∃ v, visc !! p = Some v ∧ v ≠ 0.

Lemma visc_val p : (p < np)%nat → visc !! p = Some (val visc p) ∧ val visc p ≠ 0.
Proof using Hvisc. intros H. destruct (Hvisc p H) as (v & E & Hv). by rewrite (val_eq _ _ _ E). Qed.

(** *** computeInjectedProduced *)
Section produce.
Variables (s src : list R) (dt : R).
Hypothesis Hsrc : length src ≠ 0%nat.
Hypothesis Hs : length s = (length src * np)%nat.

(** What leaves cell [c]. *)
Definition out_kv (c : nat) : list (nat * R) :=
  if Rlt_dec (val src c) 0 then ones np (λ p, share relperm visc np s c c p * (- val src c * dt)) else [].
Hypothesis Htot : ∀ c, (c < length src)%nat → val src c < 0 → totmob relperm visc np s c c ≠ 0.

Lemma slice_sats c : (c < length src)%nat → slice s (np * c) np = Some (sats np s c).
Proof using Hs. clear Hsrc Hkr Hvisc Htot. intros H. rewrite slice_Some; [done|]. rewrite Hs. nia. Qed.
Lemma produce_cell_accs c produced : (c < length src)%nat → val src c < 0 →
  produce_cell relperm visc np s dt (val src c) c produced = accs produced (out_kv c).
Proof using Hs Hkr Hvisc Htot.
  clear Hsrc. intros Hc Hq. unfold produce_cell. rewrite slice_sats by done. cbn [mbind option_bind].
  destruct (for_loop_inv (λ k '(tot, mobs), tot = rsum (mob relperm visc np s c c) (seq 0 k) ∧ length mobs = np ∧
      ∀ i, (i < np)%nat → mobs !! i = Some (if decide (i < k)%nat then mob relperm visc np s c c i else val (relperm (sats np s c) c) i)) np 0
    (λ p '(tot, mob), x ← mob !! p; v ← visc !! p; m ← rdiv x v; mob ← upd mob p m; Some (tot + m, mob)) (0, relperm (sats np s c) c)) as ([tot mobs] & E & -> & L & H).
  { split; [done|]. split; [apply Hkr|]. intros i Hi. rewrite decide_False by lia. apply val_Some. by rewrite Hkr. }
  { intros k [tot mobs] Hk (-> & L & H). rewrite (H k) by lia. rewrite decide_False by lia. cbn [mbind option_bind]. destruct (visc_val k) as [-> Hv]; [lia|]. cbn [mbind option_bind].
    unfold rdiv. destruct (Req_EM_T _ _); [done|]. cbn [mbind option_bind]. rewrite upd_Some by lia. cbn [mbind option_bind]. eexists. split; [done|]. split; [by rewrite rsum_seq_S|]. split; [by rewrite insert_length|].
    intros i Hi. destruct (decide (i = k)) as [->|Hn].
    - rewrite list_lookup_insert by lia. by rewrite decide_True by lia.
    - rewrite list_lookup_insert_ne by done. rewrite H by done. destruct (decide (i < k)%nat); [by rewrite decide_True by lia|by rewrite decide_False by lia]. }
  rewrite E. cbn [mbind option_bind Nat.add]. unfold out_kv. destruct (Rlt_dec _ 0); [|done].
  unfold ones. apply acc_loop. intros p t Hp. rewrite H by done. rewrite decide_True by (cbn; lia). cbn [mbind option_bind].
  fold (totmob relperm visc np s c c). unfold rdiv. destruct (Req_EM_T _ _) as [E0|]; [by apply Htot in E0|]. cbn [mbind option_bind accs fst snd]. unfold share. by destruct (addto _ _ _).
Qed.
Lemma out_elem c k v : (k, v) ∈ out_kv c → (k < np)%nat.
Proof using. clear. unfold out_kv. destruct (Rlt_dec _ _). - intros H. by apply ones_elem in H as [? _]. - intros H. by apply elem_of_nil in H. Qed.
Lemma outs_elem n k v : (k, v) ∈ concat (map out_kv (seq 0 n)) → (k < np)%nat.
Proof using. clear. intros H. apply elem_of_list_In, in_concat in H as (l & Hl & Hk). apply in_map_iff in Hl as (c & <- & _). apply elem_of_list_In, out_elem in Hk. lia. Qed.
Lemma out_tally c p : (p < np)%nat → tally (out_kv c) p = share relperm visc np s c c p * (Rmax 0 (- val src c) * dt).
Proof using.
  clear. intros Hp. unfold out_kv. destruct (Rlt_dec _ _).
  - rewrite tally_ones, decide_True by done. rewrite Rmax_right by lra. done.
  - rewrite tally_nil, Rmax_left by lra. lra.
Qed.
Definition in_kv (c : nat) : list (nat * R) := if Rlt_dec 0 (val src c) then [(0%nat, val src c * dt)] else [].

(** All that enters counts for the first phase; what leaves is shared between
    the phases by mobility. *)
Theorem C47_injected_produced injected produced : (0 < np)%nat → (np <= length injected)%nat → (np <= length produced)%nat →
  ∃ inj prod, compute_injected_produced relperm visc s src dt injected produced = Some (inj, prod) ∧
    length inj = length injected ∧ length prod = length produced ∧
    (∀ p, (p < np)%nat → inj !! p = Some (if decide (p = 0%nat) then rsum (λ c, Rmax 0 (val src c) * dt) (seq 0 (length src)) else 0)) ∧
    (∀ p, (p < np)%nat → prod !! p = Some (rsum (λ c, share relperm visc np s c c p * (Rmax 0 (- val src c) * dt)) (seq 0 (length src)))) ∧
    ∀ p, (np <= p)%nat → inj !! p = injected !! p ∧ prod !! p = produced !! p.
Proof using Hsrc Hs Hkr Hvisc Htot.
  intros Hnp Hi Hp. unfold compute_injected_produced. rewrite decide_False by done.
  replace (length s / length src)%nat with np by (rewrite Hs, Nat.mul_comm; symmetry; by apply Nat.div_mul). rewrite decide_True by done.
  destruct (zeros_ok np injected Hi) as (i0 & -> & Li & Hi0). destruct (zeros_ok np produced Hp) as (p0 & -> & Lp & Hp0). cbn [mbind option_bind].
  destruct (for_loop_inv (λ k '(inj, prod), (k <= length src)%nat → accs i0 (concat (map in_kv (seq 0 k))) = Some inj ∧ accs p0 (concat (map out_kv (seq 0 k))) = Some prod) (length src) 0
    (λ c '(injected, produced), q ← src !! c;
      if Rlt_dec 0 q then injected ← addto injected 0 (q * dt); Some (injected, produced)
      else if Rlt_dec q 0 then produced ← produce_cell relperm visc np s dt q c produced; Some (injected, produced)
      else Some (injected, produced)) (i0, p0)) as ([inj prod] & E & Hacc).
  { by split. }
  { intros k [inj prod] Hk Hacc. destruct (Hacc ltac:(lia)) as [Ei Ep]. rewrite (val_Some src k) by lia. cbn [mbind option_bind].
    assert (accs i0 (concat (map in_kv (seq 0 (k + 1)))) = accs inj (in_kv k) ∧ accs p0 (concat (map out_kv (seq 0 (k + 1)))) = accs prod (out_kv k)) as [Si Sp].
    { rewrite seq_app, !map_app, !concat_app, !accs_app, Ei, Ep. cbn [mbind option_bind]. cbn. by rewrite !app_nil_r. }
    destruct (Rlt_dec 0 (val src k)) as [Hq|Hq].
    - destruct (accs_ok inj (in_kv k)) as [inj' E']. { apply accs_inv in Ei as [-> _]. intros kk x. unfold in_kv. destruct (Rlt_dec _ _); [|intros Hx; by apply elem_of_nil in Hx]. intros Hx. apply elem_of_list_singleton in Hx. injection Hx as -> _. lia. }
      rewrite E' in Si. unfold in_kv in E'. destruct (Rlt_dec 0 _); [|done]. cbn [accs fst snd] in E'. destruct (addto inj 0 _) as [i1|]; [|done]. cbn [mbind option_bind] in *. injection E' as ->.
      eexists. split; [done|]. intros _. split; [done|]. rewrite Sp. unfold out_kv. destruct (Rlt_dec _ _); [lra|done].
    - assert (accs inj (in_kv k) = Some inj) as Hin0 by (unfold in_kv; by destruct (Rlt_dec 0 _)).
      destruct (Rlt_dec (val src k) 0) as [Hq'|Hq'].
      + rewrite produce_cell_accs by (done || lia). destruct (accs_ok prod (out_kv k)) as [prod' E']. { apply accs_inv in Ep as [-> _]. intros kk x Hx. apply out_elem in Hx. lia. }
        rewrite E'. cbn [mbind option_bind]. eexists. split; [done|]. intros _. by rewrite Si, Sp, E', Hin0.
      + eexists. split; [done|]. intros _. rewrite Si, Sp, Hin0. unfold out_kv. destruct (Rlt_dec _ _); done. }
  rewrite E. destruct (Hacc ltac:(lia)) as [Ei Ep]. cbn [Nat.add] in *. exists inj, prod. split; [done|].
  apply accs_inv in Ei as [L1 H1]. apply accs_inv in Ep as [L2 H2]. split; [lia|]. split; [lia|].
  assert (∀ p, tally (concat (map in_kv (seq 0 (length src)))) p = if decide (p = 0%nat) then rsum (λ c, Rmax 0 (val src c) * dt) (seq 0 (length src)) else 0) as Hin.
  { intros p. rewrite tally_concat. case_decide as Hp'.
    - apply rsum_ext. intros c _. unfold in_kv. destruct (Rlt_dec _ _).
      + rewrite tally_cons, tally_nil, decide_True by done. rewrite Rmax_right by lra. lra.
      + rewrite tally_nil, Rmax_left by lra. lra.
    - apply rsum_zero. intros c _. unfold in_kv. destruct (Rlt_dec _ _); [|apply tally_nil]. rewrite tally_cons, tally_nil, decide_False by done. lra. }
  split; [|split].
  - intros p Hp'. rewrite H1, Hi0, decide_True by done. cbn. rewrite Hin. case_decide; f_equal; lra.
  - intros p Hp'. rewrite H2, Hp0, decide_True by done. cbn. rewrite tally_concat. rewrite (rsum_ext _ (λ c, share relperm visc np s c c p * (Rmax 0 (- val src c) * dt))) by (intros c _; by apply out_tally). f_equal. lra.
  - intros p Hp'. rewrite H1, H2, Hi0, Hp0, !decide_False by lia. rewrite Hin, decide_False by lia.
    rewrite tally_concat, rsum_zero. { split; [destruct (injected !! p)|destruct (produced !! p)]; cbn; try done; f_equal; lra. }
    intros c _. unfold out_kv. destruct (Rlt_dec _ _); [|apply tally_nil]. rewrite tally_ones, decide_False by lia. done.
Qed.
(** The phases produced add up to all that leaves. *)
Theorem C47_produced_total :
  rsum (λ p, rsum (λ c, share relperm visc np s c c p * (Rmax 0 (- val src c) * dt)) (seq 0 (length src))) (seq 0 np) = rsum (λ c, Rmax 0 (- val src c) * dt) (seq 0 (length src)).
Proof using Htot.
  clear Hsrc Hs Hkr Hvisc. rewrite rsum_swap. apply rsum_ext. intros c Hc. apply elem_of_seq in Hc. destruct (Rlt_dec (val src c) 0) as [H|H].
  - rewrite (rsum_ext _ (λ p, (Rmax 0 (- val src c) * dt) * share relperm visc np s c c p)) by (intros; lra). rewrite rsum_scale. unfold share. rewrite rsum_div. fold (totmob relperm visc np s c c). specialize (Htot c ltac:(lia) H). by field.
  - rewrite Rmax_left by lra. rewrite rsum_zero; [lra|]. intros; lra.
Qed.
End produce.
End mobs.
Print Assumptions C47_injected_produced.
Print Assumptions C47_produced_total.

(** ** Pore volumes *)
Lemma resize_length n l : length (resize n l) = n.
Proof. unfold resize. rewrite app_length, take_length, replicate_length. lia. Qed.
Lemma fill_ok n (h : nat → R) (f : nat → list R → option (list R)) l : length l = n →
  (∀ i l, (i < n)%nat → f i l = upd l i (h i)) → for_loop n 0 f l = Some (map h (seq 0 n)).
Proof.
  intros L Hf. destruct (for_loop_inv (λ k t, length t = n ∧ ∀ i, (i < k)%nat → t !! i = Some (h i)) n 0 f l) as (t & E & Lt & H).
  - split; [done|]. intros; lia.
  - intros k t Hk [Lt H]. rewrite Hf by lia. rewrite upd_Some by lia. eexists. split; [done|]. split; [by rewrite insert_length|]. intros i Hi. destruct (decide (i = k)) as [->|Hn].
    + apply list_lookup_insert. lia.
    + rewrite list_lookup_insert_ne by done. apply H. lia.
  - rewrite E. f_equal. apply list_eq. intros i. rewrite list_lookup_fmap. destruct (decide (i < n)%nat) as [Hi|Hi].
    + rewrite lookup_seq_lt by done. by apply H.
    + rewrite lookup_ge_None_2 by lia. by rewrite lookup_seq_ge by lia.
Qed.
(** computePorevolume, whatever the vector held before. *)
Theorem C47_porevolume nc volumes porosity porevol : (nc <= length volumes)%nat → (nc <= length porosity)%nat →
  compute_porevolume nc volumes porosity porevol = Some (map (λ c, val porosity c * val volumes c) (seq 0 nc)).
Proof.
  intros Hv Hp. apply fill_ok; [apply resize_length|]. intros i l Hi. rewrite (val_Some porosity i), (val_Some volumes i) by lia. done.
Qed.
Theorem C47_porevolume_comp mult nc volumes porosity pressure porevol : (nc <= length volumes)%nat → (nc <= length porosity)%nat → (nc <= length pressure)%nat →
  compute_porevolume_comp mult nc volumes porosity pressure porevol = Some (map (λ c, val porosity c * val volumes c * mult (val pressure c)) (seq 0 nc)).
Proof.
  intros Hv Hp Hq. apply fill_ok; [apply resize_length|]. intros i l Hi. rewrite (val_Some porosity i), (val_Some volumes i), (val_Some pressure i) by lia. done.
Qed.
Print Assumptions C47_porevolume.
Print Assumptions C47_porevolume_comp.

(** Two cells, two phases. *)
Example C47_saturated_case : ∃ vol, compute_saturated_vol [2; 4] [1/4; 3/4; 1/2; 1/2] [7; 7; 7] = Some vol ∧ vol !! 0%nat = Some (5/2) ∧ vol !! 1%nat = Some (7/2) ∧ vol !! 2%nat = Some 7.
Proof.
  destruct (C47_saturated 2 [2; 4] [1/4; 3/4; 1/2; 1/2] ltac:(done) eq_refl [7; 7; 7] ltac:(cbn; lia)) as (vol & E & L & H & O). exists vol. split; [done|].
  rewrite !H by lia. rewrite O by lia. unfold volume, val. cbn. split; [f_equal; lra|]. split; [f_equal; lra|done].
Qed.
Example C47_average_case : ∃ av, compute_average_sat [2; 4] [1/4; 3/4; 1/2; 1/2] [7; 7] = Some av ∧ av !! 0%nat = Some (5/12).
Proof.
  destruct (C47_average 2 [2; 4] [1/4; 3/4; 1/2; 1/2] ltac:(done) eq_refl [7; 7] ltac:(cbn; lia)) as (av & E & L & H & O); [unfold total, val; cbn; lra|]. exists av. split; [done|].
  rewrite H by lia. unfold volume, total, val. cbn. f_equal. lra.
Qed.
(** One cell with a source of 3, one with a sink of 2. *)
Example C47_produced_case : ∃ inj prod, compute_injected_produced (λ sat c, match sat with [a; b] => [a; b] | _ => [0; 0] end) [1; 1] [1; 0; 1/4; 3/4] [3; -2] 10 [0; 0] [0; 0] = Some (inj, prod) ∧
  inj !! 0%nat = Some 30 ∧ prod !! 0%nat = Some 5 ∧ prod !! 1%nat = Some 15.
Proof.
  set (kr := λ (sat : list R) (c : nat), _).
  destruct (C47_injected_produced kr [1; 1] 2 ltac:(intros [|? [|? [|? ?]]] ?; done) ltac:(intros [|[|p]] ?; [exists 1|exists 1|lia]; (split; [done|lra])) [1; 0; 1/4; 3/4] [3; -2] 10 ltac:(done) eq_refl) with (injected := [0; 0]) (produced := [0; 0]) as (inj & prod & E & _ & _ & Hi & Hp & _); try (cbn; lia).
  { intros [|[|c]] Hc Hneg; cbn in Hc; [| |lia]; unfold totmob, mob, val; cbn; lra. }
  exists inj, prod. split; [done|]. rewrite Hi, !Hp by lia. unfold share, totmob, mob, val. cbn.
  rewrite (Rmax_right 0 3), (Rmax_left 0 (-2)), (Rmax_left 0 (- (3))), (Rmax_right 0 (- -2)) by lra.
  split; [rewrite decide_True by done; f_equal; lra|]. split; f_equal; field.
Qed.
