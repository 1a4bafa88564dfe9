(** Construction of the simple properties (C68), with examples. *)
From Coq Require Import Reals Lra Psatz String.
From Verif Require Import Base LoopModel LoopProof RdeckModel RdeckSpec RdeckProof RdeckProps BasicPropsModel BasicPropsProps.
Local Open Scope R_scope.
Unset Default Proof Using.

(** Rock with one porosity and one multiple of the identity. *)
Definition plain_rock (dim nc : nat) (poro perm : R) (x : incomp) : Prop :=
  in_poro x = replicate nc poro ∧ length (in_perm x) = (nc * (dim * dim))%nat ∧
  ∀ c i j, (c < nc)%nat → (i < dim)%nat → (j < dim)%nat → in_perm x !! (c * (dim * dim) + i * dim + j)%nat = Some (if decide (i = j) then perm else 0).
(** What the documentation of the parameters allows (SaturationPropsBasic.hpp:43-46). *)
Definition legal (num : Z) (rpf : string) (f : kr_fun) : Prop :=
  (num = 1%Z ∧ rpf = "Constant"%string ∧ f = KrConstant) ∨ ((num = 1 ∨ num = 2)%Z ∧ (rpf = "Linear"%string ∧ f = KrLinear ∨ rpf = "Quadratic"%string ∧ f = KrQuadratic)).

Lemma sat_init_legal num rpf f : legal (default 2%Z num) (default "Linear"%string rpf) f → sat_init num rpf = Some (SatB (Z.to_nat (default 2%Z num)) f).
Proof.
  intros [(H1 & H2 & H3)|(H1 & [[H2 H3]|[H2 H3]])]; unfold sat_init; rewrite H2, H3; rewrite decide_False by lia; cbn [String.eqb Ascii.eqb Bool.eqb]; try done.
  by rewrite decide_True.
Qed.
Lemma sat_init_inv num rpf b : sat_init num rpf = Some b → legal (default 2%Z num) (default "Linear"%string rpf) (sb_fun b).
Proof.
  unfold sat_init. case_decide as D; [done|]. destruct (String.eqb_spec (default "Linear"%string rpf) "Constant") as [E|E].
  - case_decide; [|done]. intros [= <-]. left. done.
  - destruct (String.eqb_spec (default "Linear"%string rpf) "Linear") as [E2|E2].
    + intros [= <-]. right. split; [lia|]. by left.
    + destruct (String.eqb_spec (default "Linear"%string rpf) "Quadratic") as [E3|E3]; [|done]. intros [= <-]. right. split; [lia|]. by right.
Qed.

Lemma incomp_end_ok dim nc poro perm k rho mu fvf sat : length rho = sb_np sat → (length rho <= length mu)%nat →
  length k = (nc * (dim * dim))%nat → (∀ c i j, (c < nc)%nat → (i < dim)%nat → (j < dim)%nat → k !! (c * (dim * dim) + i * dim + j)%nat = Some (if decide (i = j) then perm else 0)) →
  ∃ x, incomp_end (replicate nc poro, k) (PvtB rho mu fvf) sat = Some (Some x) ∧ in_pvt x = PvtB rho mu fvf ∧ in_sat x = sat ∧
    in_visc x = take (length rho) mu ∧ plain_rock dim nc poro perm x.
Proof.
  intros Hn Hm Hl Hk. unfold incomp_end, pvt_mu, pvt_np. cbn [pb_rho pb_mu]. rewrite decide_False by lia.
  destruct (per_phase_ok (length rho) 1 mu (replicate (length rho) 0) Hm) as (v & -> & Hv & H1 & _); [rewrite replicate_length; lia|]. cbn [mbind option_bind].
  eexists. split; [reflexivity|]. cbn [in_pvt in_sat in_visc fst snd]. split; [done|]. split; [done|]. split; [|done].
  rewrite replicate_length in Hv. apply list_eq. intros p. destruct (decide (p < length rho)%nat) as [Hp|Hp].
  - rewrite lookup_take by done. apply (H1 0%nat p); [lia|done].
  - rewrite !lookup_ge_None_2; [done|rewrite take_length; lia|lia].
Qed.

(** From parameters: what is documented is accepted and nothing else; given or
    default values end in the right places. *)
Theorem C68_params (cP mD : R) (pa : params) (dim nc : nat) : (0 < dim)%nat →
  let num := default 2%Z (pa_num pa) in let rpf := default "Linear"%string (pa_rpf pa) in
  (∀ f, legal num rpf f → ∃ x, incomp_param cP mD pa dim nc = Some (Some x) ∧
    in_sat x = SatB (Z.to_nat num) f ∧ pvt_np (in_pvt x) = Z.to_nat num ∧
    (∀ p, (p < Z.to_nat num)%nat → pb_rho (in_pvt x) !! p = Some (default 1000 (pa_rho pa p)) ∧ in_visc x !! p = Some (cP * default 1 (pa_mu pa p)) ∧ pb_mu (in_pvt x) !! p = in_visc x !! p ∧ pb_fvf (in_pvt x) !! p = Some 1) ∧
    plain_rock dim nc (default 1 (pa_poro pa)) (mD * default 100 (pa_perm pa)) x) ∧
  ((∀ f, ¬ legal num rpf f) → incomp_param cP mD pa dim nc = Some None).
Proof.
  intros Hd num rpf. destruct (C67_basic dim nc (default 1 (pa_poro pa)) (default 100 (pa_perm pa) * mD) Hd) as (k & Ek & Hl & Hk).
  unfold incomp_param. rewrite Ek. cbn [mbind option_bind]. split.
  - intros f Hf. rewrite (sat_init_legal _ _ _ Hf). fold num.
    assert (num = 1 ∨ num = 2)%Z as Hnum by (destruct Hf as [(? & _)|(? & _)]; lia).
    unfold pvt_init_param. fold num. rewrite decide_False by lia. set (np := Z.to_nat num).
    rewrite (Rmult_comm _ mD) in Hk.
    destruct (incomp_end_ok dim nc (default 1 (pa_poro pa)) (mD * default 100 (pa_perm pa)) k (map (λ p, 1 * default 1000 (pa_rho pa p)) (seq 0 np))
      (map (λ p, cP * default 1 (pa_mu pa p)) (seq 0 np)) (replicate np 1) (SatB np f)) as (x & Ex & Hp & Hs & Hv & Hr).
    { by rewrite map_length, seq_length. } { by rewrite !map_length. } { done. } { done. }
    exists x. split; [done|]. split; [done|]. unfold pvt_np. rewrite Hp, Hv. cbn [pb_rho pb_mu pb_fvf]. split; [by rewrite map_length, seq_length|]. split; [|done].
    intros p Hlt. rewrite !map_length, seq_length. rewrite lookup_take by done. rewrite !list_lookup_fmap, lookup_seq_lt by done. cbn [fmap option_fmap option_map].
    split; [f_equal; change (0 + p)%nat with p; lra|]. split; [done|]. split; [done|]. by apply lookup_replicate_2.
  - intros Hn. destruct (pvt_init_param cP (pa_num pa) (pa_rho pa) (pa_mu pa)); [|done].
    destruct (sat_init (pa_num pa) (pa_rpf pa)) as [b|] eqn:E; [|done]. exfalso. by apply (Hn (sb_fun b)), sat_init_inv.
Qed.
Print Assumptions C68_params.

(** From arguments: refused are numbers of phases other than 1, 2, 3 and other
    numbers of densities; with enough viscosities the rest is accepted. *)
Theorem C68_args (num : Z) (f : kr_fun) (rho mu : list R) (por perm : R) (dim nc : nat) : (0 < dim)%nat →
  ((1 <= num <= 3)%Z → Z.of_nat (length rho) = num → (length rho <= length mu)%nat →
    ∃ x, incomp_args num f rho mu por perm dim nc = Some (Some x) ∧ in_sat x = SatB (length rho) f ∧ pb_rho (in_pvt x) = rho ∧ pb_fvf (in_pvt x) = replicate (length rho) 1 ∧
      in_visc x = take (length rho) mu ∧ plain_rock dim nc por perm x) ∧
  ((num < 1 ∨ 3 < num)%Z ∨ Z.of_nat (length rho) ≠ num → incomp_args num f rho mu por perm dim nc = Some None).
Proof.
  intros Hd. destruct (C67_basic dim nc por perm Hd) as (k & Ek & Hl & Hk). unfold incomp_args. rewrite Ek. cbn [mbind option_bind]. split.
  - intros Hn Hr Hm. unfold pvt_init. rewrite decide_False by lia. replace (Z.to_nat num) with (length rho) by lia.
    destruct (incomp_end_ok dim nc por perm k rho mu (replicate (length rho) 1) (SatB (length rho) f) eq_refl Hm Hl Hk) as (x & Ex & Hp & Hs & Hv & Hrk).
    exists x. rewrite Hp. done.
  - intros H. unfold pvt_init. case_decide as D; [done|]. unfold incomp_end, pvt_np. cbn [pb_rho sb_np]. rewrite decide_True; [done|]. lia.
Qed.
Print Assumptions C68_args.

(** Too few viscosities are not refused, they are read anyhow. *)
Theorem C68_viscosities_refuted : ∃ num f rho mu, (1 <= num <= 2)%Z ∧ Z.of_nat (length rho) = num ∧ (length mu < length rho)%nat ∧
  incomp_args num f rho mu 1 1 2 1 = None.
Proof. exists 2%Z, KrLinear, [1000; 800], [1]. split; [lia|]. split; [done|]. split; [cbn; lia|]. reflexivity. Qed.
Print Assumptions C68_viscosities_refuted.
(** Constant relative permeability of two phases, which parameters cannot ask for,
    is accepted from arguments; then both phases flow as if alone. *)
Theorem C68_constant_refuted : ∃ num rho mu x, num ≠ 1%Z ∧ (∀ rpf, ¬ legal num rpf KrConstant) ∧ incomp_args num KrConstant rho mu 1 1 2 1 = Some (Some x) ∧
  ∀ s kr, length s = 2%nat → length kr = 2%nat → sat_relperm (in_sat x) 1 s kr None = Some ([1; 1], None).
Proof.
  destruct (C68_args 2 KrConstant [1000; 800] [1; 5] 1 1 2 1 ltac:(lia)) as [H _]. destruct H as (x & E & Hs & _); [lia|done|done|].
  exists 2%Z, [1000; 800], [1; 5], x. split; [done|]. split; [intros rpf [(? & _)|(_ & [[_ ?]|[_ ?]])]; done|]. split; [done|].
  intros s kr H1 H2. rewrite Hs. destruct s as [|s0 [|s1 [|]]]; try done. destruct kr as [|k0 [|k1 [|]]]; done.
Qed.
Print Assumptions C68_constant_refuted.

(** Cases meeting the hypotheses: quadratic permeabilities of two phases at two
    points; a group with the viscosity of the second phase. *)
Example ex_relperm : sat_relperm (SatB 2 KrQuadratic) 2 [1/2; 1/2; 1/4; 3/4] [7; 7; 7; 7; 7] (Some (replicate 8 7)) =
  Some ([1/2 * (1/2); 1/2 * (1/2); 1/4 * (1/4); 3/4 * (3/4); 7], Some [2 * (1/2); 0; 0; 2 * (1/2); 2 * (1/4); 0; 0; 2 * (3/4)]).
Proof. reflexivity. Qed.
Example ex_params : ∃ x, incomp_param (1/1000) (1/10) (Params None (Some "Quadratic"%string) None None (λ _, None) (λ p, if decide (p = 1%nat) then Some 5 else None)) 2 3 = Some (Some x) ∧
  in_visc x !! 1%nat = Some (1/1000 * 5) ∧ in_sat x = SatB 2 KrQuadratic.
Proof.
  destruct (C68_params (1/1000) (1/10) (Params None (Some "Quadratic"%string) None None (λ _, None) (λ p, if decide (p = 1%nat) then Some 5 else None)) 2 3 ltac:(lia)) as [H _].
  destruct (H KrQuadratic) as (x & E & Hs & _ & Hv & _); [right; split; [by right|by right]|]. exists x. split; [done|]. split; [|done].
  destruct (Hv 1%nat) as (_ & H2 & _); [cbn; lia|]. exact H2.
Qed.
