(** Simple fluid and rock properties (C68). *)
From Coq Require Import Reals Lra Psatz String.
From Verif Require Import Base LoopModel LoopProof RdeckModel RdeckSpec RdeckProof RdeckProps BasicPropsModel.
Local Open Scope R_scope.
Unset Default Proof Using.

Lemma fill_ok l lo hi v : (lo <= hi <= length l)%nat → ∃ l', fill l lo hi v = Some l' ∧ length l' = length l ∧
  (∀ x, (lo <= x < hi)%nat → l' !! x = Some v) ∧ (∀ x, (x < lo ∨ hi <= x)%nat → l' !! x = l !! x).
Proof.
  intros H. unfold fill.
  edestruct (for_loop_inv (λ k (st : list R), length st = length l ∧ (∀ x, (lo <= x < k)%nat → st !! x = Some v) ∧ (∀ x, (x < lo ∨ k <= x)%nat → st !! x = l !! x)) (hi - lo) lo) as (st & Est & H1 & H2 & H3).
  3:{ rewrite Est. eexists. split; [reflexivity|]. split; [done|]. split; intros x Hx; [apply H2|apply H3]; lia. }
  - split; [done|]. split; [intros; lia|done].
  - intros i st Hi (H1 & H2 & H3). rewrite upd_Some by lia. eexists. split; [reflexivity|]. split; [by rewrite insert_length|]. split.
    + intros x Hx. destruct (decide (x = i)) as [->|]; [by rewrite list_lookup_insert by lia|]. rewrite list_lookup_insert_ne by lia. apply H2. lia.
    + intros x Hx. rewrite list_lookup_insert_ne by lia. apply H3. lia.
Qed.

(** Relative permeabilities of point [i] as a function of its saturations, and
    these with the one of phase [q] replaced. *)
Definition krs (f : R → R) (sat : nat → R) (p : nat) : R := f (sat p).
Definition replaced (sat : nat → R) (q : nat) (x : R) (p : nat) : R := if decide (p = q) then x else sat p.
(** The functions by name. *)
Definition named (f : kr_fun) : R → R := match f with KrConstant => λ _, 1 | KrLinear => λ s, s | KrQuadratic => λ s, s ^ 2 end.

Lemma kr_named f s : kr_of f s = named f s.
Proof. destruct f; cbn; lra. Qed.
Lemma dkr_named f s : derivable_pt_lim (named f) s (dkr_of f s).
Proof.
  destruct f; cbn [named dkr_of].
  - apply derivable_pt_lim_const.
  - apply derivable_pt_lim_id.
  - replace (2 * s) with (INR 2 * s ^ Nat.pred 2) by (cbn; lra). apply (derivable_pt_lim_pow s 2).
Qed.
Lemma jacobian f sat p q : derivable_pt_lim (λ x, krs (named f) (replaced sat q x) p) (sat q) (if decide (p = q) then dkr_of f (sat p) else 0).
Proof.
  unfold krs, replaced. destruct (decide (p = q)) as [->|]; [apply dkr_named|]. apply derivable_pt_lim_const.
Qed.

(** Relative permeabilities of all points, and their derivatives m_pq of phase p by
    saturation q in Fortran order; nothing else is written. *)
Theorem C68_relperm (b : satb) (n : nat) (s kr dkr : list R) : let np := sb_np b in
  (n * np <= length s)%nat → (n * np <= length kr)%nat → (n * np * np <= length dkr)%nat →
  ∃ kr' dkr', sat_relperm b n s kr (Some dkr) = Some (kr', Some dkr') ∧ length kr' = length kr ∧ length dkr' = length dkr ∧
    sat_relperm b n s kr None = Some (kr', None) ∧
    (∀ i, (i < n)%nat → let sat := λ p, default 0 (s !! (i * np + p)%nat) in
      (∀ p, (p < np)%nat → kr' !! (i * np + p)%nat = Some (krs (named (sb_fun b)) sat p)) ∧
      ∀ p q, (p < np)%nat → (q < np)%nat → ∃ d, dkr' !! (i * (np * np) + (p + q * np))%nat = Some d ∧
        derivable_pt_lim (λ x, krs (named (sb_fun b)) (replaced sat q x) p) (sat q) d) ∧
    (∀ x, (n * np <= x)%nat → kr' !! x = kr !! x) ∧ (∀ x, (n * np * np <= x)%nat → dkr' !! x = dkr !! x).
Proof.
  intros np Hs Hk Hd. unfold sat_relperm. set (f := sb_fun b). fold np. unfold eval_all.
  set (sat := λ i p, default 0 (s !! (i * np + p)%nat)).
  assert (∀ i p, (i < n)%nat → (p < np)%nat → s !! (i * np + p)%nat = Some (sat i p)) as Hsat.
  { intros i p Hi Hp. unfold sat. destruct (lookup_lt_is_Some_2 s (i * np + p)) as [x ->]; [nia|done]. }
  edestruct (for_loop_inv (λ k (st : list R * list R), length (fst st) = length kr ∧ length (snd st) = length dkr ∧
    (∀ i p, (i < k)%nat → (p < np)%nat → fst st !! (i * np + p)%nat = Some (kr_of f (sat i p))) ∧
    (∀ i p q, (i < k)%nat → (p < np)%nat → (q < np)%nat → snd st !! (i * (np * np) + (p + q * np))%nat = Some (if decide (p = q) then dkr_of f (sat i p) else 0)) ∧
    (∀ x, (k * np <= x)%nat → fst st !! x = kr !! x) ∧ (∀ x, (k * np * np <= x)%nat → snd st !! x = dkr !! x)) n 0) as ([kr' dkr'] & -> & L1 & L2 & V1 & V2 & U1 & U2).
  { cbn [fst snd]. split; [done|]. split; [done|]. split; [intros; lia|]. split; [intros; lia|]. by split. }
  { intros i [k1 d1] Hi (L1 & L2 & V1 & V2 & U1 & U2). cbn [fst snd] in *.
    destruct (fill_ok d1 (i * np * np) ((i + 1) * np * np) 0) as (d2 & -> & L3 & F1 & F2); [nia|]. cbn [mbind option_bind].
    edestruct (for_loop_inv (λ ph (st : list R * list R), length (fst st) = length kr ∧ length (snd st) = length dkr ∧
      (∀ p, (p < ph)%nat → fst st !! (i * np + p)%nat = Some (kr_of f (sat i p))) ∧
      (∀ p q, (p < np)%nat → (q < np)%nat → snd st !! (i * (np * np) + (p + q * np))%nat = Some (if decide (p = q ∧ (p < ph)%nat) then dkr_of f (sat i p) else 0)) ∧
      (∀ x, (x < i * np ∨ i * np + ph <= x)%nat → fst st !! x = k1 !! x) ∧ (∀ x, (x < i * np * np ∨ (i + 1) * np * np <= x)%nat → snd st !! x = d1 !! x)) np 0)
      as ([k3 d3] & -> & M1 & M2 & W1 & W2 & X1 & X2).
    { cbn [fst snd]. split; [done|]. split; [lia|]. split; [intros; lia|]. split; [|split; [done|]].
      - intros p q Hp Hq. rewrite decide_False by lia. apply F1. nia.
      - intros x Hx. by apply F2. }
    { intros ph [k3 d3] Hph (M1 & M2 & W1 & W2 & X1 & X2). cbn [fst snd] in *. rewrite Hsat by lia. cbn [mbind option_bind].
      rewrite upd_Some by nia. cbn [mbind option_bind]. rewrite upd_Some by nia. cbn [mbind option_bind]. eexists. split; [reflexivity|]. cbn [fst snd].
      split; [by rewrite insert_length|]. split; [by rewrite insert_length|]. split; [|split; [|split]].
      - intros p Hp. destruct (decide (p = ph)) as [->|]; [by rewrite list_lookup_insert by nia|]. rewrite list_lookup_insert_ne by lia. apply W1. lia.
      - intros p q Hp Hq. destruct (decide (p = ph ∧ q = ph)) as [[-> ->]|Hne].
        + replace (i * np * np + ph * np + ph)%nat with (i * (np * np) + (ph + ph * np))%nat by lia. rewrite list_lookup_insert by nia. rewrite decide_True by lia. done.
        + rewrite list_lookup_insert_ne.
          { rewrite W2 by done. f_equal. apply decide_ext. lia. }
          intros E. apply Hne. assert (ph = p ∧ ph = q) as [-> ->]; [|done]. apply (pair_inj np); try lia.
      - intros x Hx. rewrite list_lookup_insert_ne by lia. apply X1. lia.
      - intros x Hx. rewrite list_lookup_insert_ne by nia. by apply X2. }
    eexists. split; [reflexivity|]. cbn [fst snd] in *. split; [done|]. split; [done|]. split; [|split; [|split]].
    - intros i' p Hi' Hp. destruct (decide (i' = i)) as [->|]; [apply W1; lia|]. rewrite X1 by nia. apply V1; lia.
    - intros i' p q Hi' Hp Hq. destruct (decide (i' = i)) as [->|].
      + rewrite W2 by done. f_equal. apply decide_ext. lia.
      + rewrite X2 by nia. apply V2; lia.
    - intros x Hx. rewrite X1 by nia. apply U1. nia.
    - intros x Hx. rewrite X2 by nia. apply U2. nia. }
  cbn [fst snd] in *. cbn [mbind option_bind fst snd]. exists kr', dkr'. split; [done|]. split; [done|]. split; [done|]. split; [|split; [|split]].
  - edestruct (for_loop_inv (λ k (st : list R), length st = length kr ∧ (∀ x, (x < k)%nat → st !! x = kr' !! x) ∧ (∀ x, (k <= x)%nat → st !! x = kr !! x)) (n * np) 0) as (st & E & N1 & N2 & N3).
    3:{ rewrite E. cbn [mbind option_bind]. f_equal. f_equal. apply list_eq. intros x. destruct (decide (x < n * np)%nat); [apply N2; lia|]. rewrite N3 by lia. symmetry. apply U1. lia. }
    + split; [done|]. split; [intros; lia|done].
    + intros x st Hx (N1 & N2 & N3).
      assert (x = (x / np) * np + x mod np)%nat as Ex by (rewrite Nat.mul_comm; apply Nat.div_mod; lia).
      assert (x mod np < np)%nat as Hm by (apply Nat.mod_upper_bound; lia). assert (x / np < n)%nat as Hq by (apply Nat.div_lt_upper_bound; lia).
      destruct (lookup_lt_is_Some_2 s x) as [y Ey]; [lia|]. rewrite Ey. cbn [mbind option_bind]. rewrite upd_Some by lia. eexists. split; [reflexivity|].
      split; [by rewrite insert_length|]. split.
      * intros x' Hx'. destruct (decide (x' = x)) as [->|].
        -- rewrite list_lookup_insert by lia. pose proof (V1 (x / np) (x mod np) ltac:(lia) Hm)%nat as V. rewrite <- Ex in V. rewrite V.
           unfold sat. rewrite <- Ex. rewrite Ey. done.
        -- rewrite list_lookup_insert_ne by lia. apply N2. lia.
      * intros x' Hx'. rewrite list_lookup_insert_ne by lia. apply N3. lia.
  - intros i Hi. cbv zeta. change (λ p, default 0 (s !! (i * np + p)%nat)) with (sat i). split.
    + intros p Hp. rewrite V1 by lia. unfold krs. by rewrite kr_named.
    + intros p q Hp Hq. eexists. split; [apply V2; lia|]. apply jacobian.
  - intros x Hx. apply U1. lia.
  - intros x Hx. apply U2. lia.
Qed.
Print Assumptions C68_relperm.

(** No capillary pressure, saturations between 0 and 1. *)
Theorem C68_simple (b : satb) (n : nat) (pc dpc smin smax : list R) : let np := sb_np b in
  (n * np <= length pc)%nat → (n * np * np <= length dpc)%nat → (n * np <= length smin)%nat → (n * np <= length smax)%nat →
  (∃ pc' dpc', sat_cap b n pc (Some dpc) = Some (pc', Some dpc') ∧ sat_cap b n pc None = Some (pc', None) ∧
    (∀ x, (x < n * np)%nat → pc' !! x = Some 0) ∧ (∀ x, (x < n * np * np)%nat → dpc' !! x = Some 0) ∧
    (∀ x, (n * np <= x)%nat → pc' !! x = pc !! x) ∧ (∀ x, (n * np * np <= x)%nat → dpc' !! x = dpc !! x)) ∧
  (∃ smin' smax', sat_range b n smin smax = Some (smin', smax') ∧
    (∀ x, (x < n * np)%nat → smin' !! x = Some 0 ∧ smax' !! x = Some 1) ∧
    (∀ x, (n * np <= x)%nat → smin' !! x = smin !! x ∧ smax' !! x = smax !! x)).
Proof.
  intros np H1 H2 H3 H4. unfold sat_cap, sat_range. fold np.
  destruct (fill_ok pc 0 (np * n) 0) as (pc' & -> & _ & A1 & A2); [lia|]. destruct (fill_ok dpc 0 (np * np * n) 0) as (dpc' & -> & _ & B1 & B2); [lia|].
  destruct (fill_ok smin 0 (np * n) 0) as (smin' & -> & _ & C1 & C2); [lia|]. destruct (fill_ok smax 0 (np * n) 1) as (smax' & -> & _ & D1 & D2); [lia|].
  cbn [mbind option_bind]. split.
  - exists pc', dpc'. split; [done|]. split; [done|]. split; [intros; apply A1; lia|]. split; [intros; apply B1; lia|]. split; [intros; apply A2; lia|intros; apply B2; lia].
  - exists smin', smax'. split; [done|]. split; intros x Hx; split; [apply C1|apply D1|apply C2|apply D2]; lia.
Qed.
Print Assumptions C68_simple.

Lemma per_phase_ok np n vals out : (np <= length vals)%nat → (n * np <= length out)%nat → ∃ out', per_phase np n vals out = Some out' ∧ length out' = length out ∧
  (∀ i p, (i < n)%nat → (p < np)%nat → out' !! (i * np + p)%nat = vals !! p) ∧ (∀ x, (n * np <= x)%nat → out' !! x = out !! x).
Proof.
  intros Hv Ho. unfold per_phase.
  edestruct (for_loop_inv (λ k (st : list R), length st = length out ∧ (∀ i p, (i < n)%nat → (p < k)%nat → st !! (i * np + p)%nat = vals !! p) ∧ (∀ x, (n * np <= x)%nat → st !! x = out !! x)) np 0) as (st & E & H1 & H2 & H3).
  3:{ rewrite E. eexists. split; [reflexivity|]. split; [done|]. split; [intros; apply H2; lia|done]. }
  - split; [done|]. split; [intros; lia|done].
  - intros ph st Hph (H1 & H2 & H3).
    edestruct (for_loop_inv (λ k (st : list R), length st = length out ∧ (∀ i p, (i < n)%nat → (p < ph)%nat → st !! (i * np + p)%nat = vals !! p) ∧
      (∀ i, (i < k)%nat → st !! (i * np + ph)%nat = vals !! ph) ∧ (∀ x, (n * np <= x)%nat → st !! x = out !! x)) n 0) as (st' & E & K1 & K2 & K3 & K4).
    3:{ rewrite E. eexists. split; [reflexivity|]. split; [done|]. split; [|done]. intros i p Hi Hp. destruct (decide (p = ph)) as [->|]; [apply K3; lia|apply K2; lia]. }
    + split; [done|]. split; [intros; apply H2; lia|]. split; [intros; lia|done].
    + intros i st' Hi (K1 & K2 & K3 & K4). destruct (lookup_lt_is_Some_2 vals ph) as [v Ev]; [lia|]. rewrite Ev. cbn [mbind option_bind]. rewrite upd_Some by nia.
      eexists. split; [reflexivity|]. split; [by rewrite insert_length|]. split; [|split].
      * intros i' p Hi' Hp. rewrite list_lookup_insert_ne; [by apply K2|]. intros E. assert (ph = p ∧ i = i') as [? ?]; [apply (pair_inj np); lia|lia].
      * intros i' Hi'. destruct (decide (i' = i)) as [->|]; [rewrite (Nat.mul_comm i np), list_lookup_insert by nia; done|].
        rewrite list_lookup_insert_ne; [rewrite K3 by lia; done|]. intros E. assert (ph = ph ∧ i = i') as [? ?]; [apply (pair_inj np); lia|lia].
      * intros x Hx. rewrite list_lookup_insert_ne by nia. by apply K4.
Qed.

(** The fluid: viscosities and volume factors of the phases at every point. *)
Theorem C68_pvt (b : pvtb) (n : nat) (out outD : list R) : let np := length (pb_rho b) in
  (np <= length (pb_mu b))%nat → (np <= length (pb_fvf b))%nat → (n * np <= length out)%nat →
  (∃ r, pvt_mu b n out = Some r ∧ (∀ i p, (i < n)%nat → (p < np)%nat → r !! (i * np + p)%nat = pb_mu b !! p) ∧ (∀ x, (n * np <= x)%nat → r !! x = out !! x)) ∧
  (∃ r, pvt_B b n out = Some r ∧ (∀ i p, (i < n)%nat → (p < np)%nat → r !! (i * np + p)%nat = pb_fvf b !! p) ∧ (∀ x, (n * np <= x)%nat → r !! x = out !! x)) ∧
  (∃ r, pvt_R b n out = Some r ∧ (∀ x, (x < n * np)%nat → r !! x = Some 0) ∧ (∀ x, (n * np <= x)%nat → r !! x = out !! x)).
Proof.
  intros np Hm Hf Ho. unfold pvt_mu, pvt_B, pvt_R, pvt_np. fold np. split; [|split].
  - destruct (per_phase_ok np n (pb_mu b) out Hm Ho) as (r & E & _ & H1 & H2). by exists r.
  - destruct (per_phase_ok np n (pb_fvf b) out Hf Ho) as (r & E & _ & H1 & H2). by exists r.
  - destruct (fill_ok out 0 (n * np) 0) as (r & E & _ & H1 & H2); [lia|]. exists r. split; [done|]. split; intros; [apply H1|apply H2]; lia.
Qed.
Print Assumptions C68_pvt.

(** Both derivatives by pressure are 0, beside the values. *)
Theorem C68_pvt_derivatives (b : pvtb) (n : nat) (out outD : list R) : let np := length (pb_rho b) in
  (np <= length (pb_fvf b))%nat → (n * np <= length out)%nat → (n * np <= length outD)%nat →
  (∃ r d, pvt_dBdp b n out outD = Some (r, d) ∧ pvt_B b n out = Some r ∧ (∀ x, (x < n * np)%nat → d !! x = Some 0)) ∧
  (∃ r d, pvt_dRdp b n out outD = Some (r, d) ∧ pvt_R b n out = Some r ∧ (∀ x, (x < n * np)%nat → d !! x = Some 0)).
Proof.
  intros np Hf Ho Hd. split.
  - destruct (per_phase_ok np n (pb_fvf b) out Hf Ho) as (r & E & L & H1 & H2).
    unfold pvt_dBdp, pvt_B, pvt_np. fold np. rewrite E.
    edestruct (for_loop_inv (λ k (st : list R * list R), length (fst st) = length out ∧ length (snd st) = length outD ∧
      (∀ i p, (i < n)%nat → (p < k)%nat → fst st !! (i * np + p)%nat = pb_fvf b !! p ∧ snd st !! (i * np + p)%nat = Some 0) ∧ (∀ x, (n * np <= x)%nat → fst st !! x = out !! x)) np 0) as ([r' d] & E' & L1 & L2 & V & U).
    3:{ rewrite E'. exists r', d. cbn [fst snd] in *. split; [done|]. split.
        - f_equal. apply list_eq. intros x. destruct (decide (x < n * np)%nat) as [Hx|Hx]; [|rewrite U, H2 by lia; done].
          assert (x = (x / np) * np + x mod np)%nat as -> by (rewrite Nat.mul_comm; apply Nat.div_mod; lia).
          assert (x mod np < np)%nat by (apply Nat.mod_upper_bound; lia). assert (x / np < n)%nat by (apply Nat.div_lt_upper_bound; lia).
          rewrite H1 by done. symmetry. apply V; lia.
        - intros x Hx. assert (x = (x / np) * np + x mod np)%nat as -> by (rewrite Nat.mul_comm; apply Nat.div_mod; lia).
          assert (x mod np < np)%nat by (apply Nat.mod_upper_bound; lia). assert (x / np < n)%nat by (apply Nat.div_lt_upper_bound; lia). apply V; lia. }
    + cbn [fst snd]. split; [done|]. split; [done|]. split; [intros; lia|done].
    + intros ph st0 Hph (L1 & L2 & V & U).
      edestruct (for_loop_inv (λ k (st : list R * list R), length (fst st) = length out ∧ length (snd st) = length outD ∧
        (∀ i p, (i < n)%nat → (p < ph)%nat → fst st !! (i * np + p)%nat = pb_fvf b !! p ∧ snd st !! (i * np + p)%nat = Some 0) ∧
        (∀ i, (i < k)%nat → fst st !! (i * np + ph)%nat = pb_fvf b !! ph ∧ snd st !! (i * np + ph)%nat = Some 0) ∧ (∀ x, (n * np <= x)%nat → fst st !! x = out !! x)) n 0) as (st' & E2 & K1 & K2 & K3 & K4 & K5).
      3:{ rewrite E2. eexists. split; [reflexivity|]. split; [done|]. split; [done|]. split; [|done]. intros i p Hi Hp. destruct (decide (p = ph)) as [->|]; [apply K4; lia|apply K3; lia]. }
      * split; [done|]. split; [done|]. split; [intros; apply V; lia|]. split; [intros; lia|done].
      * intros i [o d] Hi (K1 & K2 & K3 & K4 & K5). cbn [fst snd] in *. destruct (lookup_lt_is_Some_2 (pb_fvf b) ph) as [v Ev]; [lia|]. rewrite Ev. cbn [mbind option_bind].
        rewrite upd_Some by nia. cbn [mbind option_bind]. rewrite upd_Some by nia. cbn [mbind option_bind]. eexists. split; [reflexivity|]. cbn [fst snd].
        split; [by rewrite insert_length|]. split; [by rewrite insert_length|]. split; [|split].
        -- intros i' p Hi' Hp. assert (np * i + ph ≠ i' * np + p)%nat. { intros E3. assert (ph = p ∧ i = i') as [? ?]; [apply (pair_inj np); lia|lia]. }
           rewrite !list_lookup_insert_ne by done. by apply K3.
        -- intros i' Hi'. destruct (decide (i' = i)) as [->|].
           ++ rewrite (Nat.mul_comm i np), !list_lookup_insert by nia. done.
           ++ assert (np * i + ph ≠ i' * np + ph)%nat. { intros E3. assert (ph = ph ∧ i = i') as [? ?]; [apply (pair_inj np); lia|lia]. }
              rewrite !list_lookup_insert_ne by done. destruct (K4 i') as [-> ->]; [lia|]. done.
        -- intros x Hx. rewrite list_lookup_insert_ne by nia. by apply K5.
  - unfold pvt_dRdp, pvt_R, pvt_np. fold np. destruct (fill_ok out 0 (n * np) 0) as (r & -> & _); [lia|]. destruct (fill_ok outD 0 (n * np) 0) as (d & -> & _ & H & _); [lia|].
    cbn [mbind option_bind]. exists r, d. split; [done|]. split; [done|]. intros; apply H; lia.
Qed.
Print Assumptions C68_pvt_derivatives.
