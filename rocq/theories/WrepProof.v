(** C62: loops over wells and perforations. *)
From Coq Require Import Reals Lra.
From Verif Require Import Base LoopModel LoopProof AccModel AccProof TofSpec TofProof TableModel WellsModel WellsSpec MiscModel MiscSpec WrepModel WrepSpec.
Unset Default Proof Using.
Local Open Scope R_scope.

Lemma mapM_get {A B} (f : A → option B) l k i : mapM f l = Some k → ∀ y, k !! i = Some y → ∃ x, l !! i = Some x ∧ f x = Some y.
Proof. intros H%mapM_Some_1 y Hy. by destruct (Forall2_lookup_r _ _ _ _ _ H Hy) as (x & ? & ?); exists x. Qed.
Lemma cell_ix_ok (n : nat) : cell_ix (Z.of_nat n) = Some n.
Proof. unfold cell_ix. rewrite decide_False by lia. by rewrite Nat2Z.id. Qed.
Lemma cell_ix_pos z : (0 ≤ z)%Z → cell_ix z = Some (Z.to_nat z).
Proof. intros H. unfold cell_ix. by rewrite decide_False by lia. Qed.
Lemma cell_ix_Some z n : cell_ix z = Some n → z = Z.of_nat n.
Proof. unfold cell_ix. case_decide; [done|]. intros [= <-]. by rewrite Z2Nat.id by lia. Qed.

Section wells.
Context {name_t : Type}.
Variable W : @wells R name_t.
Variable ws : list (@awell R name_t).
Hypothesis Hview : view W = Some ws.

Lemma ws_length : length ws = w_nw W.
Proof using Hview. pose proof (mapM_length _ _ _ Hview) as H. by rewrite seq_length in H. Qed.
Lemma well_get w aw : ws !! w = Some aw → view_well W w = Some aw.
Proof using Hview. intros H. destruct (mapM_get _ _ _ _ Hview _ H) as (x & Hx & E). apply lookup_seq in Hx as [-> _]. done. Qed.
Lemma well_facts w aw : ws !! w = Some aw → ∃ b c, w_connpos W !! w = Some b ∧ w_connpos W !! (w + 1)%nat = Some (b + length (aw_perfs aw))%nat ∧
  (∀ t p, aw_perfs aw !! t = Some p → w_cells W !! (b + t)%nat = Some p.1) ∧ w_type W !! w = Some (aw_type aw) ∧ w_depth W !! w = Some (aw_depth aw) ∧
  slice (w_comp_frac W) (w_np W * w) (w_np W) = Some (aw_frac aw) ∧ w_ctrls W !! w = Some (Some c) ∧ c_current c = aw_current aw ∧
  (∀ k ac, aw_ctrls aw !! k = Some ac → c_type c !! k = Some (ac_type ac) ∧ c_target c !! k = Some (ac_target ac) ∧ slice (c_distr c) (k * w_np W) (w_np W) = Some (ac_distr ac)) ∧
  length (aw_ctrls aw) = c_num c.
Proof using Hview.
  intros H. pose proof (well_get w aw H) as E. unfold view_well in E.
  destruct (w_type W !! w) as [ty|] eqn:E1; [|done]. destruct (w_depth W !! w) as [dp|] eqn:E2; [|done]. destruct (w_name W !! w) as [nm|] eqn:E3; [|done]. cbn [mbind option_bind] in E.
  destruct (slice (w_comp_frac W) _ _) as [cf|] eqn:E4; [|done]. cbn [mbind option_bind] in E. destruct (w_connpos W !! w) as [b|] eqn:E5; [|done]. cbn [mbind option_bind] in E.
  destruct (w_connpos W !! S w) as [e|] eqn:E6; [|done]. cbn [mbind option_bind] in E. destruct (slice (w_cells W) _ _) as [cells|] eqn:E7; [|done]. cbn [mbind option_bind] in E.
  destruct (slice (w_WI W) _ _) as [wi|] eqn:E8; [|done]. cbn [mbind option_bind] in E. destruct (w_ctrls W !! w) as [oc|] eqn:E9; [|done]. cbn [mbind option_bind] in E.
  destruct oc as [c|]; [|done]. cbn [mbind option_bind] in E. destruct (view_ctrls _ c) as [cs|] eqn:E10; [|done]. cbn [mbind option_bind] in E. case_decide as Hbe; [|done]. injection E as <-. cbn [aw_perfs aw_type aw_depth aw_frac aw_ctrls aw_current].
  pose proof (slice_length _ _ _ _ E7) as L7. pose proof (slice_length _ _ _ _ E8) as L8.
  exists b, c. split; [done|]. split; [rewrite Nat.add_1_r, E6; f_equal; rewrite zip_with_length; lia|]. split.
  { intros t p Hp. apply lookup_zip_with_Some in Hp as (x & y & -> & Hx & _). cbn [fst]. pose proof (lookup_lt_Some _ _ _ Hx). rewrite <- Hx. symmetry. rewrite (slice_lookup _ _ _ _ t E7) by lia. done. }
  do 5 (split; [done|]). split.
  - intros k ac Hk. destruct (mapM_get _ _ _ _ E10 _ Hk) as (x & Hx & E). apply lookup_seq in Hx as [-> _]. cbn in E. unfold view_ctrl in E. cbn in E.
    destruct (c_type c !! k) as [t1|]; [|done]. destruct (c_target c !! k) as [t2|]; [|done]. cbn [mbind option_bind] in E. destruct (slice (c_distr c) _ _) as [t3|]; [|done]. cbn [mbind option_bind] in E. by injection E as <-.
  - pose proof (mapM_length _ _ _ E10) as HL. rewrite seq_length in HL. done.
Qed.

(** One pass for each well. *)
Lemma wells_loop {S} (P : nat → S → Prop) (body : nat → S → option S) s : P 0%nat s →
  (∀ w aw s, ws !! w = Some aw → P w s → ∃ s', body w s = Some s' ∧ P (w + 1)%nat s') → ∃ s', for_loop (w_nw W) 0 body s = Some s' ∧ P (w_nw W) s'.
Proof using Hview.
  intros H0 HS. apply (for_loop_inv P); [done|]. intros w t Hw Ht. destruct (lookup_lt_is_Some_2 ws w) as [aw Haw]; [rewrite ws_length; lia|]. by apply (HS w aw).
Qed.

(** Places in arrays with one entry for each perforation. *)
Hypothesis H0 : w_connpos W !! 0%nat = Some 0%nat.
Lemma before_S w aw : ws !! w = Some aw → before ws (w + 1) = (before ws w + length (aw_perfs aw))%nat.
Proof. clear. intros H. unfold before. rewrite Nat.add_1_r, (take_S_r _ _ _ H), map_app, concat_app, app_length. cbn. rewrite app_nil_r. lia. Qed.
Lemma before_mono w w' : (w ≤ w')%nat → (before ws w ≤ before ws w')%nat.
Proof. clear. intros H. unfold before. replace w' with (w + (w' - w))%nat by lia. rewrite <- (take_take_drop ws w (w' - w)), map_app, concat_app, app_length. lia. Qed.
Lemma connpos_before w : (w ≤ length ws)%nat → w_connpos W !! w = Some (before ws w).
Proof using Hview H0.
  induction w as [|w IH]; intros Hw; [done|]. destruct (lookup_lt_is_Some_2 ws w) as [aw Haw]; [lia|]. destruct (well_facts w aw Haw) as (b & c & Hb & He & _).
  rewrite IH in Hb by lia. injection Hb as <-. rewrite Nat.add_1_r in He. rewrite He, <- Nat.add_1_r, (before_S w aw Haw). done.
Qed.
Lemma well_range w aw : ws !! w = Some aw → w_connpos W !! w = Some (before ws w) ∧ w_connpos W !! (w + 1)%nat = Some (before ws w + length (aw_perfs aw))%nat ∧
  ∀ t p, aw_perfs aw !! t = Some p → w_cells W !! (before ws w + t)%nat = Some p.1.
Proof using Hview H0.
  intros Hw. destruct (well_facts w aw Hw) as (b & c & Hb & He & Hc & _). pose proof (lookup_lt_Some _ _ _ Hw). rewrite connpos_before in Hb by lia. injection Hb as <-. by rewrite connpos_before by lia.
Qed.
Lemma rates_lookup qs w aw q t : rates_of ws qs → ws !! w = Some aw → qs !! w = Some q → (t < length q)%nat → concat qs !! (before ws w + t)%nat = q !! t.
Proof.
  clear. intros HF. revert w. induction HF as [|a x ws qs Hl HF IH]; intros w Hw Hq Ht; [done|]. destruct w as [|w].
  - injection Hq as ->. cbn. by rewrite lookup_app_l.
  - cbn in Hw, Hq. cbn [concat]. change (before (a :: ws) (S w)) with (length (aw_perfs a ++ concat (map aw_perfs (take w ws)))). rewrite app_length, lookup_app_r by lia.
    rewrite <- (IH w Hw Hq Ht). f_equal. unfold before. lia.
Qed.
(** A sum over the perforations of a well. *)
Lemma over_loop {T} w aw q (body : nat → T → option T) (get : T → R) (P : T → Prop) (h : nat → R → R) (s : T) : ws !! w = Some aw → length q = length (aw_perfs aw) → P s →
  (∀ t p x s, aw_perfs aw !! t = Some p → q !! t = Some x → P s → ∃ s', body (before ws w + t)%nat s = Some s' ∧ P s' ∧ get s' = get s + h (pcell p) x) →
  ∃ s', for_loop (length (aw_perfs aw)) (before ws w) body s = Some s' ∧ P s' ∧ get s' = get s + over aw q h.
Proof.
  clear. intros Hw Hq Hs Hb. set (b := before ws w) in *. clearbody b.
  destruct (for_loop_inv (λ j s', P s' ∧ get s' = get s + rsum (λ pq, h (pcell pq.1) pq.2) (take (j - b) (zip (aw_perfs aw) q))) (length (aw_perfs aw)) b body s) as (s' & E & H1 & H2).
  - split; [done|]. rewrite Nat.sub_diag. rewrite take_0. cbn [rsum]. lra.
  - intros j t Hj [HP Hg]. destruct (lookup_lt_is_Some_2 (aw_perfs aw) (j - b)) as [p Hp]; [lia|]. destruct (lookup_lt_is_Some_2 q (j - b)) as [x Hx]; [lia|].
    destruct (Hb (j - b)%nat p x t Hp Hx HP) as (t' & E & HP' & Hg'). replace (b + (j - b))%nat with j in E by lia. exists t'. split; [done|]. split; [done|].
    replace (j + 1 - b)%nat with (S (j - b)) by lia. rewrite (take_S_r _ _ (p, x)) by (apply lookup_zip_with_Some; by exists p, x). rewrite rsum_app. cbn [rsum fst snd]. rewrite Hg', Hg. lra.
  - exists s'. split; [done|]. split; [done|]. rewrite H2. f_equal. unfold over. rewrite take_ge; [done|]. rewrite zip_with_length. lia.
Qed.
End wells.
