(** From residuals to the laws of the results; the variants of the assembly. *)
From Coq Require Import Reals Lra.
From stdpp Require Import sorting.
From Verif Require Import Base LoopModel LoopProof CsrSpec CsrModel CsrProof CsrProps GridModel GridSpec TableModel TofSpec TofProof
  UTableProof AccModel AccProof HalfProof WellsModel IfsModel IfsSpec IfsProof IfsOps IfsBal IfsSol IfsEq.
Local Open Scope R_scope.
Unset Default Proof Using.

Section fin.
Context {name_t : Type}.
Context (bsearch : nat → list nat → option nat) (Hbs : bsearch_contract bsearch).
Context (g : ugrid) (cf : list (list nat)) (Hg : grid_ok g cf).
Context (A : csr) (wrows : list (list nat)) (ja : list nat) (rows : list (list nat)) (Hp : pattern g A wrows ja rows).
Context (trans gpress : list R) (Ht : length trans = u_nf g) (Hgp : length gpress = length (u_cellfaces g)).
Context (F : option (forces name_t)) (ds : list demand) (l : list bcitem) (HF : forces_ok g wrows F ds l).
Notation nc := (u_nc g).
Notation T f := (default 0 (trans !! f)).
Notation opsF G := (opsF g cf wrows trans F ds l G).
Notation gravity := (gravity g gpress).
Notation vec x := (λ k, default 0 (x !! k)).
Notation HExecs := (execs_ok bsearch Hbs A ja rows (pt_ja _ _ _ _ _ Hp) (pt_rows _ _ _ _ _ Hp) (λ i r H, proj1 (pt_coup _ _ _ _ _ Hp i r H))).

Lemma fluxes_law G x ff : gravity G → fluxes g trans G (vec x) l ff → face_law g trans gpress l x ff.
Proof.
  intros (HG1 & HG2 & HG3) (Hl & Hint & Hbc & Hno). constructor.
  - done.
  - intros f a b pa ea pb eb i j Hf ? ? ? ? ? ? ? ?. rewrite (Hint f a b Hf). rewrite (HG3 f a b i j Hf); [done|by exists pa, ea|by exists pb, eb].
  - intros v f c Hin Hc. split; intros Hf.
    + destruct (bsign_sgn g c f Hc (or_introl Hf)) as (E1 & E2 & _). rewrite (Hbc _ _ _ Hin). unfold bpart. cbn [fst snd]. rewrite (HG2 f _ _ Hf) by lia.
      rewrite E1, E2. unfold sgn. destruct Hf as [-> _]. cbn [default from_option]. unfold Datatypes.id. rewrite decide_True by done. f_equal. lra.
    + destruct (bsign_sgn g c f Hc (or_intror Hf)) as (E1 & E2 & _). rewrite (Hbc _ _ _ Hin). unfold bpart. cbn [fst snd]. rewrite (HG2 f _ _ Hf) by lia.
      rewrite E1, E2. unfold sgn. destruct Hf as [-> _]. cbn [default from_option]. unfold Datatypes.id. rewrite decide_False by lia. f_equal. lra.
  - intros v f c Hin Hc. split; intros Hf.
    + destruct (bsign_sgn g c f Hc (or_introl Hf)) as (E1 & E2 & _). rewrite (Hbc _ _ _ Hin). unfold bpart. cbn [fst snd].
      rewrite E2. unfold sgn. destruct Hf as [-> _]. cbn [default from_option]. unfold Datatypes.id. rewrite decide_True by done. f_equal. lra.
    + destruct (bsign_sgn g c f Hc (or_intror Hf)) as (E1 & E2 & _). rewrite (Hbc _ _ _ Hin). unfold bpart. cbn [fst snd].
      rewrite E2. unfold sgn. destruct Hf as [-> _]. cbn [default from_option]. unfold Datatypes.id. rewrite decide_False by lia. f_equal. lra.
  - done.
Qed.

(** If the residuals of the cells are [- imb] and those of the wells are zero,
    the results obey the laws with the imbalance [imb]. *)
Lemma results G x imb cpress fflux wpress wflux :
  gravity G → forallb supported ds = true → nonneg_wells F → length x = a_m A →
  (∀ c, (c < nc)%nat → rsum (res1 (vec x) c) (opsF G) = - imb c) →
  (∀ w, (w < length wrows)%nat → rsum (res1 (vec x) (nc + w)) (opsF G) = 0) →
  length cpress = nc → length fflux = u_nf g → length wpress = length wrows → length wflux = length (concat wrows) →
  ∃ ff wp wf, press_flux g trans F G x cpress fflux (Some wpress) (Some wflux) = Some (take nc x, ff, Some wp, Some wf) ∧
    face_law g trans gpress l x ff ∧ well_law g F ds x wp wf ∧
    ∀ c r, cf !! c = Some r → rsum (out g ff c) r = source F c + inflow F wf c - imb c.
Proof.
  intros HG Hsup Hnn Hx Hc Hw L1 L2 L3 L4.
  destruct (press_flux_ok g cf Hg A wrows ja rows Hp trans gpress Ht Hgp F ds l HF G x cpress fflux wpress wflux HG Hx L1 L2 L3 L4)
    as (cp & ff & wp & wf & E & -> & Hff & Lwp & Lwf & Hres).
  exists ff, wp, wf. split; [exact E|]. split; [by apply (fluxes_law G)|]. split.
  - intros F' W mt wdp w d b e EF EW Emt Ewdp Hd Hb He. cbn zeta. rewrite EF, EW, Emt, Ewdp in Hres. destruct Hres as [Hwp Hwf].
    pose proof HF as H. rewrite EF in H. destruct H as (HW & _). rewrite EW, Emt, Ewdp in HW. destruct HW as (Hok & mt' & wdp' & [= <-] & [= <-] & Lmt & Lwdp).
    assert (Hlt : (w < length wrows)%nat) by (rewrite <- (wk_len _ _ _ _ Hok); by eapply lookup_lt_Some).
    destruct (lookup_lt_is_Some_2 wrows w Hlt) as [r Hr].
    pose proof (wk_pos _ _ _ _ Hok w r b Hr Hb) as He'. rewrite He in He'. injection He' as ->.
    assert (Hst : starts 0 wrows !! w = Some b) by (rewrite <- (connpos_starts g wrows W ds Hok mt wdp Lmt Lwdp w) by lia; done).
    assert (Hrow : well_row wrows w = seq b (length r)) by (unfold well_row; by rewrite Hr, Hst).
    assert (Hin : ∀ i, (b <= i < b + length r)%nat → (w, i) ∈ halves 0 0 wrows).
    { intros i Hi. apply well_row_in. rewrite Hrow. apply elem_of_seq. lia. }
    assert (Hpf : ∀ i, (b <= i < b + length r)%nat → wf !! i = Some (pflux g W ds mt wdp (vec x) w i)).
    { intros i Hi. rewrite (Hwf w i (Hin i Hi)). f_equal.
      by apply (pflux_reported g cf Hg wrows trans gpress Ht Hgp F ds l HF G x W mt wdp F' w i EF EW Emt Ewdp Hnn Hsup (Hw w Hlt) (Hin i Hi)). }
    assert (Hpc : ∀ i c, w_cells W !! i = Some (Z.of_nat c) → pc W i = c).
    { intros i c Hcell. unfold pc. rewrite Hcell. cbn. apply Nat2Z.id. }
    pose proof (Hw w Hlt) as HR. rewrite (res_well g cf Hg wrows trans gpress Ht Hgp F ds l HF G (vec x) W mt wdp F' w EF EW Emt Ewdp Hlt) in HR.
    rewrite Hd, Hrow in HR. change (default Shut (Some d)) with d in HR. replace (b + length r - b)%nat with (length r) by lia.
    destruct d as [|bhp|q|]; [..|done].
    + intros i Hi. rewrite (Hpf i Hi). unfold pflux. by rewrite Hd.
    + split.
      * intros i c Hi Hcell. rewrite (Hpf i Hi). unfold pflux. rewrite Hd. cbn [default from_option]. unfold Datatypes.id, PT, PD. by rewrite (Hpc i c Hcell).
      * intros (i & c & Hi & Hcell & Hne). rewrite (Hwp w (Pressure bhp) Hd ltac:(done)).
        destruct (lookup_lt_is_Some_2 x (nc + w)) as [v Ev]; [rewrite Hx, (pt_m _ _ _ _ _ Hp); lia|]. rewrite Ev in HR |- *.
        f_equal. change (default 0 (Some v)) with v in HR. destruct (Rmult_integral _ _ HR) as [E0|E0]; [lra|]. exfalso. apply Hne.
        destruct (Hnn F' W mt EF EW Emt) as [N1 N2].
        pose proof (rsum_nonneg_zero _ _ (λ i _, PT_nonneg W mt i N1 N2) E0 i ltac:(apply elem_of_seq; lia)) as Ez.
        unfold PT in Ez. by rewrite (Hpc i c Hcell) in Ez.
    + split; [|split].
      * rewrite (rsum_ext _ (pflux g W ds mt wdp (vec x) w)); [lra|]. intros i Hi%elem_of_seq. rewrite Hpf by lia. done.
      * by apply (Hwp w (Rate q)).
      * intros i c Hi Hcell. rewrite (Hpf i Hi), (Hwp w (Rate q) Hd ltac:(done)). unfold pflux. rewrite Hd. cbn [default from_option]. unfold Datatypes.id, PT, PD. by rewrite (Hpc i c Hcell).
  - intros c r Hr. assert (Hlt : (c < nc)%nat) by (rewrite <- (ok_cells _ _ Hg); by eapply lookup_lt_Some).
    pose proof (Hc c Hlt) as E1. rewrite (res_cell g cf Hg wrows trans gpress F ds l HF G (vec x) ff c r HG Hff Hr) in E1.
    rewrite (inflow_perfF g cf Hg wrows trans gpress Ht Hgp F ds l HF G x wf c Hnn Hsup Hw Lwf Hlt); [lra|].
    case_eq F; [|done]. intros F' EF. destruct (F_W F') as [W|] eqn:EW; [|done]. destruct (F_totmob F') as [mt|] eqn:Emt; [|done].
    destruct (F_wdp F') as [wdp|] eqn:Ewdp; [|done]. rewrite EF, EW, Emt, Ewdp in Hres. apply Hres.
Qed.

(** ** The first position holds the first diagonal element *)
Lemma first_pos : (0 < nc)%nat → ∃ e, a_ia A !! 0%nat = Some 0%nat ∧ a_ia A !! 1%nat = Some e ∧ (0 < e)%nat ∧ ja !! 0%nat = Some 0%nat.
Proof.
  intros Hnc. pose proof (pt_rows _ _ _ _ _ Hp) as Hh. destruct (stored00 g A wrows ja rows Hp trans gpress Ht Hgp Hnc) as (r & Hr & H0).
  destruct (row_bounds A ja rows Hh 0 r Hr) as (b & e & Eb & Ee & Hle & Hle2 & Hs).
  destruct Hh as (_ & Hi0 & _). rewrite Hi0 in Eb. injection Eb as <-. rewrite Nat.sub_0_r in Hs.
  destruct (pt_coup _ _ _ _ _ Hp 0 r Hr) as [Hsort _]. destruct r as [|x r]; [by apply elem_of_nil in H0|].
  pose proof (slice_length _ _ _ _ Hs) as Hlen. cbn [length] in Hlen. exists e. split_and!; [done|done|lia|].
  pose proof (slice_lookup _ _ _ _ 0 Hs ltac:(lia)) as E. cbn in E. rewrite E. f_equal.
  apply elem_of_cons in H0 as [->|H0]; [done|]. apply (StronglySorted_Sorted) || idtac.
  assert (StronglySorted le (x :: r)) as HS by (apply Sorted_StronglySorted; [intros ???; lia|done]).
  apply StronglySorted_inv in HS as [_ HS]. rewrite Forall_forall in HS. specialize (HS _ H0). lia.
Qed.

Lemma ifs_assembled fgrav s : (0 < nc)%nat → length fgrav = u_nf g → sized ja rows s → ∃ G s',
  ifs_assemble bsearch g A trans gpress F fgrav s = Some (G, s', forallb supported ds) ∧ gravity G ∧ sized ja rows s' ∧
  (forallb supported ds = true → ∃ d, (free ds l = false → d = 0) ∧
    (∀ i j, mat A (s_sa s') i j = oa (opsF G) i j + (if decide (0%nat = i ∧ 0%nat = j) then d else 0)) ∧
    ∀ k, (k < a_m A)%nat → s_b s' !! k = Some (ob (opsF G) k)).
Proof.
  intros Hnc Hf Hs.
  destruct (assembled bsearch Hbs g cf Hg A wrows ja rows Hp trans gpress Ht Hgp F ds l HF fgrav s Hf Hs) as (G & s1 & ok & E & HG & Hs1 & -> & H).
  unfold ifs_assemble. rewrite E. cbn [mbind option_bind]. destruct (forallb supported ds && free ds l) eqn:Eb.
  - apply andb_true_iff in Eb as [Es Ef]. destruct (H Es) as [HA HB]. destruct (first_pos Hnc) as (e & E0 & E1 & He & Hj).
    assert (is_Some (s_sa s1 !! 0%nat)) as [v Ev].
    { apply lookup_lt_is_Some_2. rewrite (proj1 Hs1). by eapply lookup_lt_Some. }
    rewrite Ev. cbn [mbind option_bind].
    assert (Ha : addto (s_sa s1) 0 v = upd (s_sa s1) 0 (v * 2)).
    { unfold addto. rewrite Ev. cbn [mbind option_bind]. f_equal. lra. }
    rewrite <- Ha. destruct (addto (s_sa s1) 0 v) as [sa'|] eqn:Ea; [|by rewrite (addto_Some _ _ _ _ Ev) in Ea]. cbn [mbind option_bind].
    exists G, (Sys sa' (s_b s1)). rewrite Es. split; [done|]. split; [done|]. split.
    { split; [|apply Hs1]. cbn. destruct (addto_lookup _ _ _ _ 0%nat Ea) as [-> _]. apply Hs1. }
    intros _. exists v. split; [by rewrite Ef|]. split; [|done]. intros i j. cbn [s_sa].
    rewrite (mat_addto A ja rows (pt_ja _ _ _ _ _ Hp) (pt_rows _ _ _ _ _ Hp) (s_sa s1) 0 v sa' 0 0 0 e E0 E1 ltac:(lia) Hj Ea). by rewrite HA.
  - exists G, s1. split; [done|]. split; [done|]. split; [done|]. intros Es. destruct (H Es) as [HA HB]. exists 0. split; [done|]. split; [|done].
    intros i j. rewrite HA. destruct (decide _); lra.
Qed.

(** ** Rock compressibility *)
Definition accum_ops (d q : nat → R) (n : nat) : list op := concat (map (λ c, [OA c c (d c); OB c (q c)]) (seq 0 n)).
Lemma accum_valid d q : Forall (valid rows) (accum_ops d q nc).
Proof.
  unfold accum_ops. apply Forall_concat, Forall_map, Forall_forall. intros c Hc%elem_of_seq.
  pose proof (pt_m _ _ _ _ _ Hp). pose proof (pt_len _ _ _ _ _ Hp).
  apply Forall_cons. split; [|apply Forall_cons; split; [cbn; lia|done]]. cbn. eapply stored_diag; [done|]. lia.
Qed.
Lemma accum_oa d q i j : oa (accum_ops d q nc) i j = if decide (i = j ∧ (i < nc)%nat) then d i else 0.
Proof.
  clear -i. unfold oa, accum_ops. rewrite rsum_concat, rsum_map.
  rewrite (rsum_ext _ (λ c, if decide (c = i) then (if decide (i = j) then d i else 0) else 0)).
  2: { intros c _. cbn [rsum oa1]. destruct (decide (c = i)) as [->|Hn].
       - destruct (decide (i = j)) as [->|Hn]; [rewrite decide_True by done; lra|rewrite decide_False by (intros [_ ?]; done); lra].
       - rewrite decide_False by (intros [? _]; done). lra. }
  destruct (decide (i < nc)%nat) as [Hi|Hi].
  - rewrite (rsum_single (λ _, if decide (i = j) then d i else 0)); [|apply NoDup_seq|apply elem_of_seq; lia].
    by rewrite (decide_ext (i = j) (i = j ∧ (i < nc)%nat)) by lia.
  - rewrite (decide_False (P := i = j ∧ _)) by lia. apply rsum_zero. intros c Hc%elem_of_seq. by rewrite decide_False by lia.
Qed.
Lemma accum_ob d q i : ob (accum_ops d q nc) i = if decide (i < nc)%nat then q i else 0.
Proof.
  clear -i. unfold ob, accum_ops. rewrite rsum_concat, rsum_map.
  rewrite (rsum_ext _ (λ c, if decide (c = i) then q i else 0)).
  2: { intros c _. cbn [rsum ob1]. destruct (decide (c = i)) as [->|Hn]; lra. }
  destruct (decide (i < nc)%nat) as [Hi|Hi].
  - rewrite (rsum_single (λ _, q i)); [done|apply NoDup_seq|apply elem_of_seq; lia].
  - apply rsum_zero. intros c Hc%elem_of_seq. by rewrite decide_False by lia.
Qed.
Lemma diag_idx c : (c < nc)%nat → is_Some (elm_index bsearch c c A).
Proof.
  intros Hc. assert (stored rows c c) as (r & Hr & Hcr) by (eapply stored_diag; [done|]; rewrite (pt_m _ _ _ _ _ Hp); lia).
  destruct (idx_pos bsearch Hbs A ja rows (pt_ja _ _ _ _ _ Hp) (pt_rows _ _ _ _ _ Hp) (λ i r H, proj1 (pt_coup _ _ _ _ _ Hp i r H)) c c r Hr Hcr) as (b & e & p & _ & _ & E & _). by exists p.
Qed.
(** Residuals when accumulation terms were added. *)
Lemma accum_res sa b x G d q : (∀ i j, mat A sa i j = oa (opsF G) i j + oa (accum_ops d q nc) i j) →
  (∀ k, (k < a_m A)%nat → b !! k = Some (ob (opsF G) k + ob (accum_ops d q nc) k)) → solves A sa b x →
  (∀ c, (c < nc)%nat → rsum (res1 (vec x) c) (opsF G) = - (d c * default 0 (x !! c) - q c)) ∧
  (∀ w, (w < length wrows)%nat → rsum (res1 (vec x) (nc + w)) (opsF G) = 0).
Proof.
  intros HA HB Hs. pose proof (pt_m _ _ _ _ _ Hp) as Hm.
  assert (Hv : Forall (valid rows) (opsF G)) by (by eapply opsF_valid).
  assert (Hk : ∀ k, (k < a_m A)%nat → rsum (res1 (vec x) k) (opsF G) = - (if decide (k < nc)%nat then d k * default 0 (x !! k) - q k else 0)).
  { intros k Hk. specialize (Hs k Hk). rewrite (HB k Hk) in Hs. change (default 0 (Some ?y)) with y in Hs.
    rewrite <- (res_sum (vec x) k (a_m A) _ (ops_cols g cf Hg A wrows ja rows Hp _ Hv)).
    rewrite (rsum_ext (λ j, mat A sa k j * default 0 (x !! j)) (λ j, oa (opsF G) k j * default 0 (x !! j) + (if decide (j = k) then (if decide (k < nc)%nat then d k * default 0 (x !! k) else 0) else 0))) in Hs.
    2: { intros j _. rewrite HA, accum_oa. destruct (decide (j = k)) as [->|Hn].
         - rewrite (decide_ext (k = k ∧ (k < nc)%nat) (k < nc)%nat) by lia. destruct (decide _); lra.
         - rewrite decide_False by lia. lra. }
    rewrite rsum_plus in Hs. rewrite (rsum_single (λ _, if decide (k < nc)%nat then d k * default 0 (x !! k) else 0)) in Hs; [|apply NoDup_seq|apply elem_of_seq; lia].
    rewrite accum_ob in Hs. destruct (decide (k < nc)%nat); lra. }
  split.
  - intros c Hc. rewrite Hk by lia. by rewrite decide_True.
  - intros w Hw. rewrite Hk by lia. rewrite decide_False by lia. lra.
Qed.

(** ** Matrix times vector *)
Lemma ja_lt k : k ∈ ja → (k < a_m A)%nat.
Proof.
  clear Ht Hgp. intros Hk. destruct (holds_rows_unique _ _ _ (pt_rows _ _ _ _ _ Hp)) as [_ E]. rewrite E in Hk.
  apply elem_of_list_In, in_concat in Hk as (r & Hr & Hk). rewrite <- elem_of_list_In in Hr. rewrite <- elem_of_list_In in Hk. apply elem_of_list_lookup in Hr as [i Hr].
  assert (stored rows i k) as Hs by (by exists r).
  assert (Forall (valid rows) [OA i k 0]) as Hv by (apply Forall_cons; split; [done|done]).
  eapply (ops_cols g cf Hg A wrows ja rows Hp [OA i k 0] Hv i k 0). by left.
Qed.
Lemma mult_ok sa u v : length sa = length ja → length u = a_m A → length v = a_m A →
  ∃ v', mult_csr A sa u v = Some v' ∧ length v' = a_m A ∧ ∀ i, (i < a_m A)%nat → v' !! i = Some (rsum (λ j, mat A sa i j * default 0 (u !! j)) (seq 0 (a_m A))).
Proof.
  intros Ls Lu Lv. unfold mult_csr. rewrite (pt_ja _ _ _ _ _ Hp). cbn [mbind option_bind].
  destruct (for_loop_inv (λ i s, a_ia A !! i = Some s.1 ∧ length s.2 = a_m A ∧
    ∀ k, (k < i)%nat → s.2 !! k = Some (rsum (λ j, mat A sa k j * default 0 (u !! j)) (seq 0 (a_m A)))) (a_m A) 0
    (λ i s, v ← upd s.2 i 0; csr_step (a_ia A) (mult_body sa u ja) i (s.1, v)) (0%nat, v)) as ([j v'] & -> & _ & H1 & H2).
  - split; [apply (pt_rows _ _ _ _ _ Hp)|]. split; [done|]. intros k Hk. lia.
  - intros i [j w] [_ Hi] (Ej & Lw & Hw). cbn [fst snd] in *.
    destruct (lookup_lt_is_Some_2 rows i) as [r Hr]; [rewrite (pt_len _ _ _ _ _ Hp); lia|].
    destruct (row_bounds A ja rows (pt_rows _ _ _ _ _ Hp) i r Hr) as (b & e & Eb & Ee & Hle & Hle2 & Hsl).
    rewrite Ej in Eb. injection Eb as ->. rewrite upd_Some by lia. cbn [mbind option_bind]. unfold csr_step. rewrite Ee. cbn [mbind option_bind fst snd].
    rewrite for_loop_run.
    set (kv := λ p, [(i, default 0 (sa !! p) * match ja !! p with Some k => default 0 (u !! k) | None => 0 end)]).
    rewrite (run_accs _ kv).
    2: { intros p s Hp'%elem_of_seq. unfold mult_body, kv. destruct (lookup_lt_is_Some_2 sa p) as [a ->]; [lia|]. destruct (lookup_lt_is_Some_2 ja p) as [k Ek]; [lia|].
         rewrite Ek. destruct (lookup_lt_is_Some_2 u k) as [x Eu]; [rewrite Lu; apply ja_lt; by eapply elem_of_list_lookup_2|].
         rewrite Eu. cbn [mbind option_bind]. rewrite Eu. cbn [mbind option_bind default from_option]. unfold Datatypes.id. cbn [accs fst snd]. by destruct (addto s i (a * x)). }
    destruct (accs_ok (<[i:=0]> w) (concat (map kv (seq b (e - b))))) as [w' Ew'].
    { intros k y Hin. apply elem_of_list_In, in_concat in Hin as (q & Hq & Hin). apply in_map_iff in Hq as (p & <- & _). destruct Hin as [[= <- _]|[]]. rewrite insert_length. lia. }
    rewrite Ew'. cbn [mbind option_bind]. eexists. split; [done|]. cbn [fst snd]. destruct (accs_inv _ _ _ Ew') as [Lw' Hw'].
    split; [|split].
    + replace (i + 1)%nat with (S i) by lia. rewrite Ee. f_equal. lia.
    + rewrite Lw', insert_length. done.
    + intros k Hk. rewrite Hw'. destruct (decide (k = i)) as [->|Hn].
      * rewrite list_lookup_insert by lia. cbn [fmap option_fmap option_map]. f_equal.
        rewrite (rsum_mat A ja (pt_ja _ _ _ _ _ Hp) sa (λ k, default 0 (u !! k)) i (a_m A) ja_lt), Ej, Ee. rewrite tally_concat, Rplus_0_l.
        apply rsum_ext. intros p _. unfold kv. rewrite tally_cons, tally_nil, decide_True by done. lra.
      * rewrite list_lookup_insert_ne by done. rewrite Hw by lia. cbn [fmap option_fmap option_map]. f_equal.
        rewrite tally_concat, (rsum_zero (λ a, tally (kv a) k)); [lra|]. intros p _. unfold kv. rewrite tally_cons, tally_nil, decide_False by done. lra.
  - exists v'. split; [done|]. split; [done|]. intros i Hi. by apply H2.
Qed.
(** Without wells, the rows of wells are empty. *)
Lemma no_well_rows G X F' w : F = Some F' → F_W F' = None → (w < length wrows)%nat → rsum (res1 X (nc + w)) (opsF G) = 0.
Proof.
  intros EF EW Hw. pose proof HF as H. rewrite EF in H. destruct H as (HW & Hb & _). unfold IfsSol.opsF. rewrite !rsum_app.
  rewrite (res_face_ops_well g cf Hg) by lia. unfold IfsSol.bopsF, IfsSol.wopsF, IfsSol.sopsF. rewrite EF, EW.
  rewrite (res_bops g trans G). rewrite (rsum_zero _ (bcs l)).
  2: { intros [[ty v] f] He. cbn [snd]. rewrite decide_False; [done|].
       destruct (F_bc F') as [bc|]; [|rewrite Hb in He; by apply elem_of_nil in He].
       destruct (bc_ext g cf Hg bc l Hb _ _ _ He) as (_ & _ & _ & _ & Hc & _). lia. }
  assert (rsum (res1 X (nc + w)) match F_src F' with Some src => src_ops g src | None => [] end = 0) as ->.
  { destruct (F_src F'); [|done]. rewrite res_sops. by rewrite decide_False by lia. }
  cbn. lra.
Qed.
End fin.
