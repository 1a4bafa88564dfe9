(** Lemmas for C66: the loops of the constructor of live oil. *)
From Coq Require Import Reals Lra Psatz.
From Verif Require Import Base LoopModel LoopProof TableModel TofSpec MiscSpec UTableProof NTableProof NTableProps PvtModel PvtMakeModel PvtSpec PvtMakeSpec PvtProof PvtGas.
Local Open Scope R_scope.
Unset Default Proof Using.

(** ** Lists *)
Lemma mapM_map {A B} (f : A → option B) (g : A → B) (l : list A) : (∀ x, x ∈ l → f x = Some (g x)) → mapM f l = Some (map g l).
Proof.
  induction l as [|x l IH]; intros H; [done|]. cbn [mapM map]. rewrite H by left. cbn [mbind option_bind]. rewrite IH; [done|]. intros y Hy. apply H. by right.
Qed.
(** The largest pressure of a table. *)
Definition lastp (l : list R) : R := val l (length l - 1).
Lemma last_lastp l : (1 ≤ length l)%nat → last l = Some (lastp l).
Proof. intros H. rewrite last_lookup. replace (pred (length l)) with (length l - 1)%nat by lia. unfold lastp. apply val_some. lia. Qed.
Lemma lastp_snoc l x : lastp (l ++ [x]) = x.
Proof. unfold lastp, val. rewrite app_length. cbn [length]. rewrite lookup_app_r by lia. replace (length l + 1 - 1 - length l)%nat with 0%nat by lia. done. Qed.
Lemma ordered_snoc l x : ordered 1 l → (1 ≤ length l)%nat → lastp l < x → ordered 1 (l ++ [x]).
Proof.
  intros O Hl Hx. split; [by left|]. intros i j a b Hij Ha Hb. assert (Hj : (j < length l + 1)%nat) by (apply lookup_lt_Some in Hb; by rewrite app_length in Hb).
  rewrite lookup_app_l in Ha by lia. destruct (decide (j < length l)%nat).
  - rewrite lookup_app_l in Hb by lia. by apply (proj2 O i j).
  - rewrite lookup_app_r in Hb by lia. replace (j - length l)%nat with 0%nat in Hb by lia. injection Hb as <-. assert (a <= lastp l); [|lra].
    destruct (decide (i = length l - 1)%nat) as [->|]; [unfold lastp, val; rewrite Ha; cbn; lra|]. pose proof (proj2 O i (length l - 1)%nat a (lastp l) ltac:(lia) Ha (val_some l (length l - 1)%nat ltac:(lia))). lra.
Qed.
Lemma ordered_last l i a : ordered 1 l → l !! i = Some a → (i < length l - 1)%nat → a < lastp l.
Proof. intros O Ha Hi. pose proof (proj2 O i (length l - 1)%nat a (lastp l) Hi Ha (val_some l (length l - 1)%nat ltac:(lia))). lra. Qed.
(** How many elements are larger than [x]. *)
Fixpoint cnt (l : list R) (x : R) : nat := match l with [] => 0 | a :: l => (if Rlt_dec x a then 1 else 0) + cnt l x end.
Lemma cnt_le l x : (cnt l x ≤ length l)%nat.
Proof. induction l as [|a l IH]; cbn; [lia|]. destruct (Rlt_dec x a); lia. Qed.
Lemma cnt_mono l x y : x <= y → (cnt l y ≤ cnt l x)%nat.
Proof. intros H. induction l as [|a l IH]; cbn; [lia|]. destruct (Rlt_dec x a), (Rlt_dec y a); lra || lia. Qed.
Lemma cnt_lt l x y i a : l !! i = Some a → x < a → a <= y → (cnt l y < cnt l x)%nat.
Proof.
  intros Hi H1 H2. revert i Hi. induction l as [|b l IH]; intros i Hi; [done|]. cbn. pose proof (cnt_mono l x y ltac:(lra)). destruct i as [|i].
  - injection Hi as ->. destruct (Rlt_dec x a), (Rlt_dec y a); lra || lia.
  - specialize (IH i Hi). destruct (Rlt_dec x b), (Rlt_dec y b); lra || lia.
Qed.

(** ** upper_bound and the next pressure *)
Lemma upper_bound_spec l x : (upper_bound l x ≤ length l)%nat ∧ ∀ a, l !! upper_bound l x = Some a → x < a.
Proof. induction l as [|b l [I1 I2]]; cbn; [split; [lia|done]|]. destruct (Rlt_dec x b); [split; [lia|intros a [= <-]; done]|]. split; [lia|done]. Qed.
Lemma pick_ok ps bs vs p0 : ordered 1 ps → (2 ≤ length ps)%nat → length bs = length ps → length vs = length ps →
  ∃ it p more s, pick [ps; bs; vs] p0 = Some (p, more, s) ∧ segment [ps; bs; vs] s ∧ ps !! it = Some p ∧ (p0 < lastp ps → p0 < p) ∧ (more = true → p0 < p ∧ p < lastp ps).
Proof.
  intros O Hl Hb Hv. unfold pick. cbn [lookup list_lookup mbind option_bind]. destruct (upper_bound_spec ps (p0 + 1)) as [U1 U2]. set (u := upper_bound ps (p0 + 1)) in *.
  set (it := if decide (u = length ps) then (u - 1)%nat else if decide (u = 0%nat) then 1%nat else u).
  assert (Hit : (1 ≤ it < length ps)%nat) by (unfold it; repeat case_decide; lia).
  assert (HP : ∀ p, ps !! it = Some p → (p0 < lastp ps → p0 < p) ∧ ((it ≠ length ps - 1)%nat → p0 < p ∧ p < lastp ps)).
  { intros p Hp. assert (G : u ≠ length ps → p0 < p).
    { intros Hu. destruct (lookup_lt_is_Some_2 ps u) as [a Ha]; [lia|]. specialize (U2 a Ha). assert (Eit : it = u ∨ u = 0%nat ∧ it = 1%nat) by (unfold it; repeat case_decide; lia). destruct Eit as [Eit|[E0 Eit]]; rewrite Eit in Hp.
      - rewrite Ha in Hp. injection Hp as <-. lra.
      - rewrite E0 in Ha. pose proof (proj2 O 0%nat 1%nat a p ltac:(lia) Ha Hp). lra. }
    destruct (decide (u = length ps)) as [Hu|Hu].
    - assert (Eit : it = (length ps - 1)%nat) by (unfold it; lia). split; [|lia]. intros H. rewrite Eit in Hp. unfold lastp, val in H. rewrite Hp in H. cbn in H. exact H.
    - split; [auto|]. intros Hne. split; [auto|]. apply (ordered_last ps it p O Hp). lia. }
  clearbody it. rewrite decide_False by lia.
  destruct (lookup_lt_is_Some_2 ps it) as [p Hp]; [lia|]. destruct (lookup_lt_is_Some_2 ps (it - 1)) as [q Hq]; [lia|]. destruct (lookup_lt_is_Some_2 bs it) as [b1 Hb1]; [lia|]. destruct (lookup_lt_is_Some_2 bs (it - 1)) as [b0 Hb0]; [lia|]. destruct (lookup_lt_is_Some_2 vs it) as [v1 Hv1]; [lia|]. destruct (lookup_lt_is_Some_2 vs (it - 1)) as [v0 Hv0]; [lia|].
  assert (HN : p - q ≠ 0) by (pose proof (proj2 O (it - 1)%nat it q p ltac:(lia) Hq Hp); lra).
  rewrite Hp, Hq, Hb1, Hb0, Hv1, Hv0. cbn [mbind option_bind]. rewrite (rdiv_Some _ (p - q)) by done. cbn [mbind option_bind]. rewrite (rdiv_Some _ (p - q)) by done. cbn [mbind option_bind].
  eexists it, p, _, _. split; [reflexivity|]. split. { replace it with (S (it - 1)) in Hp, Hb1, Hv1 by lia. eexists _, _, _, (it - 1)%nat, p, q, b1, b0, v1, v0. done. }
  split; [done|]. destruct (HP p Hp) as [H1 H2]. split; [done|]. intros Hm. apply H2. apply negb_true_iff, bool_decide_eq_false in Hm. done.
Qed.

(** ** The loop over pressures *)
Definition meas (pps nps : list R) (fp fn : bool) (p0 : R) : nat := (if fp then 1 + cnt pps p0 else 0) + (if fn then 1 + cnt nps p0 else 0).
(** The slopes of new rows. *)
Definition slope_ok (prev : option (list (list R))) (next : list (list R)) (w : option R) (s : R * R) : Prop :=
  match prev with None => segment next s | Some t => ∃ w0, w = Some w0 ∧ between t next w0 s end.
Lemma extend_ok prev pps nps nbs nvs w : ordered 1 nps → (2 ≤ length nps)%nat → length nbs = length nps → length nvs = length nps → (is_Some prev → is_Some w) →
  ∀ fuel c0 c1 c2 fp fn sp sn, (∀ t, prev = Some t → fp = true ∨ segment t sp) → (fn = true ∨ segment [nps; nbs; nvs] sn) → (fp = true → ∃ bs vs, prev = Some [pps; bs; vs] ∧ ordered 1 pps ∧ (2 ≤ length pps)%nat ∧ length bs = length pps ∧ length vs = length pps) →
  (1 ≤ length c0)%nat → length c1 = length c0 → length c2 = length c0 → ordered 1 c0 →
  (fn = true ∧ lastp c0 < lastp nps ∨ fn = false ∧ fp = true ∧ lastp c0 < lastp pps ∨ fn = false ∧ fp = false) → (meas pps nps fp fn (lastp c0) ≤ fuel)%nat →
  ∃ d0 d1 d2, extend fuel prev [nps; nbs; nvs] w [c0; c1; c2] fp fn sp sn = Some [c0 ++ d0; c1 ++ d1; c2 ++ d2] ∧ length d1 = length d0 ∧ length d2 = length d0 ∧ ordered 1 (c0 ++ d0) ∧ (fn = true → (1 ≤ length d0)%nat) ∧
    sloped (slope_ok prev [nps; nbs; nvs] w) (lastp c0) (lastp c1) (lastp c2) d0 d1 d2.
Proof.
  intros On Ln Lb Lv Hw. induction fuel as [|fuel IH]; intros c0 c1 c2 fp fn sp sn Hsp Hsn Hprev Hc L1 L2 Oc Hst Hm.
  { assert (fp = false ∧ fn = false) as [-> ->] by (destruct fp, fn; cbn in Hm; try lia; done). exists [], [], []. cbn [extend orb]. rewrite !app_nil_r. done. }
  cbn [extend]. destruct (fp || fn) eqn:Ef; [|apply orb_false_iff in Ef as [-> ->]; exists [], [], []; rewrite !app_nil_r; done].
  cbn [lookup list_lookup mbind option_bind]. rewrite (last_lastp c0), (last_lastp c1), (last_lastp c2) by lia. cbn [mbind option_bind]. set (p0 := lastp c0) in *.
  (* what prev gives *)
  assert (HA : ∃ itp pp fp' sp', (if fp then t ← prev; pick t p0 else Some (IZR (10 ^ 47), fp, sp)) = Some (pp, fp', sp') ∧ (fp' = true → fp = true) ∧ (∀ t, prev = Some t → segment t sp') ∧
    (fp = true → pps !! itp = Some pp ∧ (p0 < lastp pps → p0 < pp) ∧ (fp' = true → p0 < pp ∧ pp < lastp pps))).
  { destruct fp.
    - destruct (Hprev eq_refl) as (bs & vs & -> & Op & Lp & Lbs & Lvs). cbn [mbind option_bind]. destruct (pick_ok pps bs vs p0 Op Lp Lbs Lvs) as (it & p & more & s & E & HSg & H1 & H2 & H3). exists it, p, more, s. split; [exact E|]. split; [done|]. split; [by intros t [= <-]|]. done.
    - exists 0%nat, (IZR (10 ^ 47)), false, sp. split; [done|]. split; [done|]. split; [|done]. intros t Ht. by destruct (Hsp t Ht). }
  destruct HA as (itp & pp & fp' & sp' & -> & HA1 & HAS & HA2). cbn [mbind option_bind].
  destruct (pick_ok nps nbs nvs p0 On Ln Lb Lv) as (itn & pn & moren & sn0 & EN & NSg & N1 & N2 & N3).
  assert (HB : ∃ pressure fn' sn', (if fn then '(p, fn, sn) ← pick [nps; nbs; nvs] p0; Some (if fp' then Rmin pp p else p, fn, sn) else Some (pp, fn, sn)) = Some (pressure, fn', sn') ∧ segment [nps; nbs; nvs] sn' ∧ p0 < pressure ∧
    (fn' = true ∧ pressure < lastp nps ∨ fn' = false ∧ fp' = true ∧ pressure < lastp pps ∨ fn' = false ∧ fp' = false) ∧ (meas pps nps fp' fn' pressure ≤ fuel)%nat).
  { destruct fn.
    - destruct Hst as [[_ Hst]|[[? _]|[? _]]]; [|done|done]. specialize (N2 Hst). rewrite EN. cbn [mbind option_bind]. exists (if fp' then Rmin pp pn else pn), moren, sn0. split; [reflexivity|]. split; [exact NSg|].
      assert (HP : p0 < if fp' then Rmin pp pn else pn). { destruct fp'; [|done]. destruct (HA2 (HA1 eq_refl)) as (_ & _ & H3). apply Rmin_glb_lt; [by apply H3|done]. }
      split; [done|]. split.
      + destruct moren; [left; split; [done|]|right]. { destruct (N3 eq_refl) as [_ H]. destruct fp'; [|done]. eapply Rle_lt_trans; [apply Rmin_r|done]. }
        destruct fp'; [left|by right]. split; [done|]. split; [done|]. destruct (HA2 (HA1 eq_refl)) as (_ & _ & H3). eapply Rle_lt_trans; [apply Rmin_l|by apply H3].
      + set (pr := if fp' then Rmin pp pn else pn) in *. pose proof (cnt_mono pps p0 pr ltac:(lra)) as M1. pose proof (cnt_mono nps p0 pr ltac:(lra)) as M2. cbn [meas] in Hm |- *. unfold meas in *.
        destruct moren; [|destruct fp'; [rewrite (HA1 eq_refl) in Hm|]; lia].
        destruct fp'.
        * rewrite (HA1 eq_refl) in Hm. destruct (HA2 (HA1 eq_refl)) as (P1 & _ & P3). destruct (P3 eq_refl) as [P4 _]. destruct (Rle_dec pp pn) as [Hle|Hle].
          -- pose proof (cnt_lt pps p0 pr itp pp P1 P4 ltac:(unfold pr, Rmin; destruct (Rle_dec pp pn); lra)). lia.
          -- pose proof (cnt_lt nps p0 pr itn pn N1 N2 ltac:(unfold pr, Rmin; destruct (Rle_dec pp pn); lra)). lia.
        * pose proof (cnt_lt nps p0 pr itn pn N1 N2 ltac:(unfold pr; lra)). destruct fp; lia.
    - destruct Hst as [[? _]|[(_ & -> & Hst)|[_ ->]]]; [done| |done]. destruct (HA2 eq_refl) as (P1 & P2 & P3). specialize (P2 Hst). exists pp, false, sn. split; [done|]. split; [by destruct Hsn|]. split; [done|]. unfold meas in *. destruct fp'.
      + destruct (P3 eq_refl) as [P4 P5]. split; [right; left; done|]. pose proof (cnt_lt pps p0 pp itp pp P1 P4 ltac:(lra)). lia.
      + split; [by right; right|]. lia. }
  destruct HB as (pressure & fn' & sn' & -> & HNS & Hgt & Hst' & Hm'). cbn [mbind option_bind].
  assert (HC : ∃ y z, (match prev with
             | Some _ => w ← w; push [c0; c1; c2] (p0 + (pressure - p0)) (lastp c1 + (pressure - p0) * (fst sp' + w * (fst sn' - fst sp'))) (lastp c2 + (pressure - p0) * (snd sp' + w * (snd sn' - snd sp')))
             | None => push [c0; c1; c2] (p0 + (pressure - p0)) (lastp c1 + (pressure - p0) * fst sn') (lastp c2 + (pressure - p0) * snd sn')
             end) = Some [c0 ++ [pressure]; c1 ++ [y]; c2 ++ [z]] ∧ ∃ s, slope_ok prev [nps; nbs; nvs] w s ∧ y = lastp c1 + (pressure - p0) * fst s ∧ z = lastp c2 + (pressure - p0) * snd s).
  { replace (p0 + (pressure - p0)) with pressure by lra. destruct prev as [t|].
    - destruct (Hw ltac:(eauto)) as [w0 ->]. cbn [mbind option_bind]. eexists _, _. split; [reflexivity|]. eexists (_, _). split; [exists w0; split; [done|]; exists sp', sn'; split; [by apply HAS|]; split; [done|reflexivity]|]. done.
    - eexists _, _. split; [reflexivity|]. exists sn'. done. }
  destruct HC as (y & z & -> & HSL). cbn [mbind option_bind].
  destruct (IH (c0 ++ [pressure]) (c1 ++ [y]) (c2 ++ [z]) fp' fn' sp' sn') as (d0 & d1 & d2 & E & D1 & D2 & D3 & _ & D5).
  - intros t Ht. right. by apply HAS.
  - by right.
  - intros ->. apply Hprev. by apply HA1.
  - rewrite app_length. cbn. lia.
  - rewrite !app_length. cbn. lia.
  - rewrite !app_length. cbn. lia.
  - by apply ordered_snoc.
  - rewrite lastp_snoc. exact Hst'.
  - rewrite lastp_snoc. exact Hm'.
  - rewrite <- !app_assoc in E. rewrite <- app_assoc in D3. exists ([pressure] ++ d0), ([y] ++ d1), ([z] ++ d2). split; [exact E|]. rewrite !app_length. cbn [length]. split; [lia|]. split; [lia|]. split; [done|]. split; [intros _; lia|]. cbn [app sloped]. split; [exact HSL|]. rewrite !lastp_snoc in D5. exact D5.
Qed.
