(** C57: gravity segregation in columns
    (opm/core/transport/reorder/TransportSolverTwophaseReorder.cpp). *)
From Coq Require Import Reals Lra Psatz.
From Verif Require Import Base CsrSpec CsrProof GridModel GridSpec LoopModel LoopProof TableModel RootModel RootProps
  TofSpec TofProof TofProps AccProof TwoModel TwoSpec TwoProof TwoProps GravModel GravSpec GravProof GravCol.
Unset Default Proof Using.
Local Open Scope R_scope.

Record gravity_ok (g : ugrid) (cf : list (list nat)) (gravflux pv : list R) (dt : R)
    (kr : nat → R → R → R * R) (visc_w visc_o : R) (smin smax : list R) (tol : R) : Prop := {
  v_grid : grid_ok g cf;
  v_flux : length gravflux = u_nf g;
  v_pv : length pv = u_nc g;
  v_pos : ∀ c p, pv !! c = Some p → 0 < p;
  v_dt : 0 <= dt;
  v_tol : 0 <= tol;
  v_fluid : segregation_ok (u_nc g) kr visc_w visc_o smin smax }.

(** The gravity flux between two cells: that of the face between them. *)
Definition flux_between (g : ugrid) (cf : list (list nat)) (gravflux : list R) (a b : nat) (v : R) : Prop :=
  ∀ f gf, gravflux !! f = Some gf →
    (face_between g f (Z.of_nat a) (Z.of_nat b) ∨ face_between g f (Z.of_nat b) (Z.of_nat a)) →
    (∀ f', face_between g f' (Z.of_nat a) (Z.of_nat b) ∨ face_between g f' (Z.of_nat b) (Z.of_nat a) → f' = f) →
    (face_between g f (Z.of_nat a) (Z.of_nat b) → v = gf) ∧ (face_between g f (Z.of_nat b) (Z.of_nat a) → v = - gf).

(** solveGravityColumn takes the flux of the face between each cell and the next,
    directed to the next cell, if there is one such face. *)
Theorem C57_fluxes g cf gravflux pv dt kr visc_w visc_o smin smax tol cells :
  gravity_ok g cf gravflux pv dt kr visc_w visc_o smin smax tol →
  NoDup cells → (∀ c, c ∈ cells → (c < u_nc g)%nat) →
  ∃ G, col_fluxes g gravflux cells = Some G ∧ length G = (length cells - 1)%nat ∧
    ∀ i a b, cells !! i = Some a → cells !! S i = Some b → ∃ v, G !! i = Some v ∧ flux_between g cf gravflux a b v.
Proof.
  intros [Hg Hf _ _ _ _ _] Hnd HC. destruct (col_fluxes_ok g cf gravflux Hg Hf cells HC) as (G & E & Hl & HG).
  exists G. split; [done|]. split; [done|]. intros i a b Ha Hb.
  assert (Hab : a ≠ b). { intros ->. assert (i = S i) by (by eapply NoDup_lookup). lia. }
  destruct (lookup_lt_is_Some_2 G i) as [v Hv]. { apply lookup_lt_Some in Hb. lia. }
  exists v. split; [done|]. intros f gf Egf Hfb Hu.
  destruct (lookup_lt_is_Some_2 cf a) as [r Hr]. { rewrite (ok_cells _ _ Hg). apply HC. by eapply elem_of_list_lookup_2. }
  assert (Hrow : ∀ f', f' ∈ r → touches g f' b → face_between g f' (Z.of_nat a) (Z.of_nat b) ∨ face_between g f' (Z.of_nat b) (Z.of_nat a)).
  { intros f' Hf' (c1 & c2 & H1 & H2 & Ht). apply (ok_inc _ _ Hg a r f' Hr) in Hf' as (c1' & c2' & [H1' H2'] & H). simplify_eq.
    unfold face_between. rewrite H1', H2'. destruct H as [H|H], Ht as [Ht|Ht]; subst; first [lia | left; done | right; done]. }
  assert (Hfr : f ∈ r). { apply (ok_inc _ _ Hg a r f Hr). destruct Hfb as [H|H]; eexists _, _; (split; [exact H|]); tauto. }
  assert (Hft : touches g f b). { destruct Hfb as [[H1 H2]|[H1 H2]]; eexists _, _; (split; [exact H1|split; [exact H2|]]); tauto. }
  assert (Hval : ∀ c1, u_facecells g !! (2 * f)%nat = Some c1 → v = if decide (c1 = Z.of_nat a) then gf else - gf).
  { intros c1 Hc1. assert (Some v = Some (if decide (c1 = Z.of_nat a) then gf else - gf)) as [= <-]; [|done].
    rewrite <- Hv. eapply (HG i a b r f c1 gf); try done. intros f' Hf' Ht. apply Hu. by apply Hrow. }
  split; intros [H1 H2]; rewrite (Hval _ H1); [by rewrite decide_True|]. rewrite decide_False; [done|]. lia.
Qed.
Print Assumptions C57_fluxes.

(** Whatever the mobilities of the neighbours, the equation of a cell changes its
    sign between the ends of its range of saturations. *)
Theorem C57_bracket g cf gravflux pv dt kr visc_w visc_o smin smax tol n (G : nat → R) (M : nat → R * R) i c p lo hi s0 :
  gravity_ok g cf gravflux pv dt kr visc_w visc_o smin smax tol →
  pv !! c = Some p → smin !! c = Some lo → smax !! c = Some hi → lo <= s0 <= hi →
  (∀ j, 0 <= (M j).1 ∧ 0 <= (M j).2) →
  column_imbalance n G M i (dt / p) s0 (mobilities kr visc_w visc_o c) lo <= 0 ∧
  0 <= column_imbalance n G M i (dt / p) s0 (mobilities kr visc_w visc_o c) hi.
Proof.
  intros [Hg Hf Hpv Hp Hdt _ HS] Ep Elo Ehi Hs0 HM. specialize (Hp c p Ep).
  assert (Hdp : 0 <= dt / p). { unfold Rdiv. assert (0 < / p) by (by apply Rinv_0_lt_compat). clear - H Hdt. nra. }
  destruct (sg_cell _ _ _ _ _ _ HS c lo hi Elo Ehi) as (Hlh & _ & E1 & E2 & Hb).
  assert (Hc : (c < u_nc g)%nat) by (rewrite <- Hpv; by eapply lookup_lt_Some).
  assert (Rlo : in_range smin smax c lo). { intros ? ? ? ?. simplify_eq. lra. }
  assert (Rhi : in_range smin smax c hi). { intros ? ? ? ?. simplify_eq. lra. }
  destruct (mob_range _ _ _ _ _ _ HS c lo Hc Rlo) as [_ Hl2]. destruct (mob_range _ _ _ _ _ _ HS c hi Hc Rhi) as [Hh1 _].
  set (m := mobilities kr visc_w visc_o c) in *.
  assert (El1 : (m lo).1 = 0). { unfold m, mobilities. cbn [fst]. rewrite E1. unfold Rdiv. lra. }
  assert (Eh2 : (m hi).2 = 0). { unfold m, mobilities. cbn [snd]. rewrite E2. unfold Rdiv. lra. }
  unfold column_imbalance. split.
  - pose proof (segregate_dry (- G (i - 1)%nat) (m lo) (M (i - 1)%nat) El1 Hl2 ltac:(apply HM)) as A.
    pose proof (segregate_dry (G i) (m lo) (M (S i)) El1 Hl2 ltac:(apply HM)) as B.
    destruct (decide (0 < i)%nat), (decide (S i < n)%nat); clear - A B Hdp Hs0; nra.
  - pose proof (segregate_full (- G (i - 1)%nat) (m hi) (M (i - 1)%nat) Eh2 Hh1 ltac:(apply HM)) as A.
    pose proof (segregate_full (G i) (m hi) (M (S i)) Eh2 Hh1 ltac:(apply HM)) as B.
    destruct (decide (0 < i)%nat), (decide (S i < n)%nat); clear - A B Hdp Hs0; nra.
Qed.
Print Assumptions C57_bracket.

(** What leaves a cell through an interface enters the other. *)
Lemma telescope n (φ : nat → R) k : (k ≤ n)%nat →
  rsum (λ i, (if decide (0 < i)%nat then - φ (i - 1)%nat else 0) + (if decide (S i < n)%nat then φ i else 0)) (seq 0 k)
  = if decide (0 < k < n)%nat then φ (k - 1)%nat else 0.
Proof.
  induction k as [|k IH]; intros Hk; [done|]. rewrite seq_S, rsum_app, IH by lia. cbn [rsum Nat.add].
  replace (S k - 1)%nat with k by lia.
  destruct (decide (0 < k < n)%nat), (decide (0 < k)%nat), (decide (S k < n)%nat), (decide (0 < S k < n)%nat); try lia; try lra.
Qed.
Theorem C57_mass n (G p w0 w e : nat → R) dt (m : nat → R → R * R) :
  (∀ i, (i < n)%nat → 0 < p i) →
  (∀ i, (i < n)%nat → e i = column_imbalance n G (λ j, m j (w j)) i (dt / p i) (w0 i) (m i) (w i)) →
  rsum (λ i, p i * w i) (seq 0 n) = rsum (λ i, p i * w0 i) (seq 0 n) + rsum (λ i, p i * e i) (seq 0 n).
Proof.
  intros Hp He. set (φ := λ i, segregate (G i) (m i (w i)) (m (S i) (w (S i)))).
  rewrite (rsum_ext _ (λ i, p i * w0 i + p i * e i + dt * ((if decide (0 < i)%nat then - φ (i - 1)%nat else 0) + (if decide (S i < n)%nat then φ i else 0)))).
  - rewrite !rsum_plus, rsum_scale. rewrite telescope by done. rewrite decide_False by lia. lra.
  - intros i Hi. apply elem_of_seq in Hi. specialize (Hp i ltac:(lia)). rewrite (He i) by lia. unfold column_imbalance.
    assert (E : (if decide (0 < i)%nat then segregate (- G (i - 1)%nat) (m i (w i)) (m (i - 1)%nat (w (i - 1)%nat)) else 0)
              = (if decide (0 < i)%nat then - φ (i - 1)%nat else 0)).
    { destruct (decide (0 < i)%nat); [|done]. rewrite segregate_anti. unfold φ. by replace (S (i - 1)) with i by lia. }
    rewrite E. fold (φ i). field. lra.
Qed.
Print Assumptions C57_mass.

(** ** The whole field *)
Section field.
Context (g : ugrid) (cf : list (list nat)) (gravflux pv : list R) (dt : R).
Context (kr : nat → R → R → R * R) (visc_w visc_o : R) (smin smax : list R) (tol : R) (maxit : Z).
Context (HV : gravity_ok g cf gravflux pv dt kr visc_w visc_o smin smax tol).
Notation nc := (u_nc g).
Notation gcell := (gcell kr visc_w visc_o smin smax).
Notation solved := (solved pv dt kr visc_w visc_o smin smax tol maxit).

Definition col_done (x : list gval) (col : list nat) (x' : list gval) : Prop :=
  ∃ cg, col_fluxes g gravflux col = Some cg ∧ (∀ c, c ∈ col → gcell x' c) ∧
    ∀ j, (j < length col)%nat → solved col cg x (λ _, 2 * tol) x' j.

Lemma solved_agree col cg x y x' y' B j : (∀ c, c ∈ col → x !! c = y !! c) → (∀ c, c ∈ col → x' !! c = y' !! c) →
  solved col cg x B x' j → solved col cg y B y' j.
Proof.
  intros H1 H2 (snap & Hsn & Hso). exists snap. split.
  - intros u d Hd Hu. destruct (Hsn u d Hd Hu) as [A1 A2]. split; [done|]. unfold satg in *. rewrite <- H2; [done|]. by eapply elem_of_list_lookup_2.
  - intros c lo hi Hc Hlo Hhi. specialize (Hso c lo hi Hc Hlo Hhi). unfold satg in *.
    rewrite <- H1, <- H2; [done|by eapply elem_of_list_lookup_2|by eapply elem_of_list_lookup_2].
Qed.

Lemma column_ok col x : NoDup col → (∀ c, c ∈ col → (c < nc)%nat) → length x = nc → (∀ c, c ∈ col → gcell x c) →
  ∃ res, grav_column g gravflux pv dt kr visc_w visc_o smin smax tol maxit col x = Some res ∧
    ∀ m x', res = Some (m, x') → length x' = nc ∧ (0 < m ≤ Z.max maxit 1)%Z ∧ (∀ u, u ∉ col → x' !! u = x !! u) ∧ col_done x col x'.
Proof using HV.
  intros Hnd HC Hl Hgd. destruct HV as [Hg Hf Hpv Hp Hdt Ht HS]. clear HV.
  destruct (col_fluxes_ok g cf gravflux Hg Hf col HC) as (cg & Ecg & Hlg & _).
  unfold grav_column. rewrite Ecg. cbn [mbind option_bind].
  assert (Hs0 : mapM (λ c, v ← x !! c; Some v.1.1) col = Some (map (satg x) col)).
  { clear - Hgd. induction col as [|c l IH]; [done|]. cbn [mapM]. destruct (Hgd c ltac:(by left)) as (s & it & E & _). rewrite E. cbn [mbind option_bind].
    rewrite IH by (intros; apply Hgd; by right). cbn. unfold satg at 2. by rewrite E. }
  rewrite Hs0. cbn [mbind option_bind].
  destruct (rounds_ok nc pv dt kr visc_w visc_o smin smax tol maxit HS Hpv Hp Hdt Ht col HC Hnd cg Hlg x Hl
    ltac:(intros; by eapply gcell_sat, Hgd) (map (satg x) col) ltac:(intros j c Hj; by rewrite list_lookup_fmap, Hj)
    (Z.to_nat maxit + 1) 0 x) as (res & E & Hres); try done; try lia.
  exists res. split; [done|]. intros m x' Hr. destruct (Hres m x' Hr) as (Hm & Hl' & Ho & Hgd' & Hso). split; [done|]. split; [lia|]. split; [done|].
  exists cg. done.
Qed.

Lemma columns_ok cols : NoDup (concat cols) → (∀ c, c ∈ concat cols → (c < nc)%nat) → ∀ x k, length x = nc → (∀ c, c ∈ concat cols → gcell x c) →
  ∃ res, grav_columns g gravflux pv dt kr visc_w visc_o smin smax tol maxit cols k x = Some res ∧
    ∀ m x', res = Some (m, x') → length x' = nc ∧ (k + Z.of_nat (length cols) ≤ m)%Z ∧ (∀ u, u ∉ concat cols → x' !! u = x !! u) ∧
      ∀ col, col ∈ cols → col_done x col x'.
Proof using HV.
  induction cols as [|col cols IH]; intros Hnd HC x k Hl Hgd.
  { eexists. split; [reflexivity|]. intros m x' [= <- <-]. split; [done|]. split; [simpl; lia|]. split; [done|]. intros col Hcol. by apply elem_of_nil in Hcol. }
  cbn [concat] in Hnd, HC, Hgd. apply NoDup_app in Hnd as (Hnd1 & Hdis & Hnd2).
  cbn [grav_columns].
  destruct (column_ok col x Hnd1) as (res & E & Hres); [intros; apply HC; apply elem_of_app; by left|done|intros; apply Hgd, elem_of_app; by left|].
  rewrite E. cbn [mbind option_bind]. destruct res as [[m1 x1]|]; [|by exists None].
  destruct (Hres m1 x1 eq_refl) as (Hl1 & Hm1 & Ho1 & Hd1).
  destruct (IH Hnd2 ltac:(intros; apply HC, elem_of_app; by right) x1 (k + m1)%Z Hl1) as (res2 & E2 & Hres2).
  { intros c Hc. destruct (Hgd c) as (s & it & Ec & H); [apply elem_of_app; by right|]. exists s, it. rewrite Ho1; [done|]. intros H'. by apply (Hdis c). }
  exists res2. split; [done|]. intros m x' Hr. destruct (Hres2 m x' Hr) as (Hl2 & Hm2 & Ho2 & Hd2).
  split; [done|]. split; [cbn [length]; lia|]. split.
  { intros u Hu. cbn [concat] in Hu. rewrite elem_of_app in Hu. rewrite Ho2, Ho1 by tauto. done. }
  intros c0 Hc0. apply elem_of_cons in Hc0 as [->|Hc0].
  - destruct Hd1 as (cg & Ecg & Hg1 & Hs1). exists cg.
    assert (Hagree : ∀ c, c ∈ col → x1 !! c = x' !! c). { intros c Hc. symmetry. apply Ho2. by apply Hdis. }
    split; [done|]. split.
    + intros c Hc. destruct (Hg1 c Hc) as (s & it & Ec & H). exists s, it. by rewrite <- Hagree.
    + intros j Hj. eapply solved_agree; [|exact Hagree|by apply Hs1]. done.
  - destruct (Hd2 c0 Hc0) as (cg & Ecg & Hg1 & Hs1). exists cg. split; [done|]. split; [done|]. intros j Hj.
    eapply solved_agree; [| |by apply Hs1]; [|done]. intros c Hc. apply Ho1. intros H. apply (Hdis c H). apply in_concat_iff. by exists c0.
Qed.
End field.

Lemma sat_pairs_length l n : length l = (2 * n)%nat → length (sat_pairs l) = n.
Proof.
  revert l. induction n as [|n IH]; intros l Hl; [by destruct l|]. destruct l as [|a [|b l]]; simpl in Hl; [lia|lia|].
  simpl. f_equal. apply IH. lia.
Qed.
Lemma sat_pairs_lookup l n c s so : length l = (2 * n)%nat → l !! (2 * c)%nat = Some s → l !! (2 * c + 1)%nat = Some so → sat_pairs l !! c = Some (s, so).
Proof.
  revert l c. induction n as [|n IH]; intros l c Hl; [destruct l; [by rewrite !lookup_nil|done]|].
  destruct l as [|a [|b l]]; simpl in Hl; [lia|lia|].
  destruct c as [|c]; [by intros [= ->] [= ->]|]. replace (2 * S c)%nat with (S (S (2 * c))) by lia. simpl. apply IH. lia.
Qed.

(** solveGravity, over any division of the cells into columns: it fails only by
    the exception for lack of convergence; otherwise the two saturations of every
    cell add up to 1 and stay in their range, and the water saturation settles
    the equation of the cell, with saturations of its neighbours in the column
    that differ from the final ones by at most twice the tolerance. *)
Theorem C57_solve g cf gravflux pv dt kr visc_w visc_o smin smax tol maxit cols its sat :
  gravity_ok g cf gravflux pv dt kr visc_w visc_o smin smax tol →
  concat cols ≡ₚ seq 0 (u_nc g) → length its = u_nc g → length sat = (2 * u_nc g)%nat →
  (∀ c s so lo hi, sat !! (2 * c)%nat = Some s → sat !! (2 * c + 1)%nat = Some so → smin !! c = Some lo → smax !! c = Some hi →
     so = 1 - s ∧ lo <= s <= hi) →
  ∃ res, grav_solve g gravflux pv dt kr visc_w visc_o smin smax tol maxit cols its sat = Some res ∧
    ∀ sat' k, res = Some (sat', k) → length sat' = (2 * u_nc g)%nat ∧ (Z.of_nat (length cols) ≤ k)%Z ∧
    ∀ col, col ∈ cols → ∃ G, col_fluxes g gravflux col = Some G ∧
      ∀ j c p lo hi s0, col !! j = Some c → pv !! c = Some p → smin !! c = Some lo → smax !! c = Some hi → sat !! (2 * c)%nat = Some s0 →
      ∃ s snap, sat' !! (2 * c)%nat = Some s ∧ sat' !! (2 * c + 1)%nat = Some (1 - s) ∧ lo <= s <= hi ∧
        (∀ u d lo' hi', col !! u = Some d → u = S j ∨ S u = j → smin !! d = Some lo' → smax !! d = Some hi' →
           ∃ sd, sat' !! (2 * d)%nat = Some sd ∧ lo' <= snap d <= hi' ∧ Rabs (snap d - sd) <= 2 * tol) ∧
        segregated tol maxit
          (column_imbalance (length col) (λ i, default 0 (G !! i))
             (λ i, let d := default 0%nat (col !! i) in mobilities kr visc_w visc_o d (snap d)) j (dt / p) s0 (mobilities kr visc_w visc_o c))
          lo hi s0 s.
Proof.
  intros HV Hcols Hits Hsat Hrange. pose proof HV as [Hg Hf Hpv Hp Hdt Ht HS]. pose proof HS as [Hvw Hvo Hmin Hmax _].
  unfold grav_solve. destruct (Req_EM_T visc_w 0) as [?|_]; [lra|]. destruct (Req_EM_T visc_o 0) as [?|_]; [lra|].
  set (x := imap _ (zip (sat_pairs sat) its)).
  pose proof (sat_pairs_length sat _ Hsat) as Hsp.
  assert (Hlx : length x = u_nc g). { unfold x. rewrite imap_length, zip_with_length. lia. }
  assert (Hx : ∀ c, (c < u_nc g)%nat → ∃ s it, sat !! (2 * c)%nat = Some s ∧ x !! c = Some (s, mobilities kr visc_w visc_o c s, it) ∧ in_range smin smax c s).
  { intros c Hc. destruct (lookup_lt_is_Some_2 sat (2 * c)%nat) as [s Es]; [lia|]. destruct (lookup_lt_is_Some_2 sat (2 * c + 1)%nat) as [so Eso]; [lia|].
    destruct (lookup_lt_is_Some_2 its c) as [it Eit]; [lia|].
    destruct (lookup_lt_is_Some_2 smin c) as [lo El]; [lia|]. destruct (lookup_lt_is_Some_2 smax c) as [hi Eh]; [lia|].
    destruct (Hrange c s so lo hi Es Eso El Eh) as [-> Hs].
    exists s, it. split; [done|]. split.
    - unfold x. rewrite list_lookup_imap, lookup_zip_with. rewrite (sat_pairs_lookup sat _ c s (1 - s) Hsat Es Eso), Eit. cbn.
      unfold mobilities. by destruct (kr c s (1 - s)).
    - intros lo' hi' ? ?. by simplify_eq. }
  destruct (columns_ok g cf gravflux pv dt kr visc_w visc_o smin smax tol maxit HV cols) with (x := x) (k := 0%Z) as (res & E & Hres); try done.
  { rewrite Hcols. apply NoDup_seq. }
  { intros c Hc. rewrite Hcols in Hc. apply elem_of_seq in Hc. lia. }
  { intros c Hc. rewrite Hcols in Hc. apply elem_of_seq in Hc. destruct (Hx c ltac:(lia)) as (s & it & _ & E & H). by exists s, it. }
  rewrite E. cbn [mbind option_bind]. eexists. split; [reflexivity|]. intros sat' k Hk. destruct res as [[k' x']|]; [|done]. injection Hk as <- <-.
  destruct (Hres k' x' eq_refl) as (Hl' & Hk' & _ & Hdone).
  split. { rewrite to_both_length, map_length, Hl'. done. } split; [lia|].
  assert (L : ∀ u v, x' !! u = Some v → to_both_sat (map (λ v : gval, v.1.1) x') !! (2 * u)%nat = Some v.1.1 ∧
                                       to_both_sat (map (λ v : gval, v.1.1) x') !! (2 * u + 1)%nat = Some (1 - v.1.1)).
  { intros u v Hv. apply to_both_lookup. by rewrite list_lookup_fmap, Hv. }
  intros col Hcol. destruct (Hdone col Hcol) as (G & EG & Hgd & Hso). exists G. split; [done|].
  intros j c p lo hi s0 Hj Ep Elo Ehi Es0. assert (HcC : c ∈ col) by (by eapply elem_of_list_lookup_2).
  assert (Hc : (c < u_nc g)%nat) by (rewrite <- Hpv; by eapply lookup_lt_Some).
  destruct (Hgd c HcC) as (s & it & Ec & Hs). destruct (L c _ Ec) as [L1 L2]. cbn [fst snd] in L1, L2.
  destruct (Hso j) as (snap & Hsn & Hseg); [by eapply lookup_lt_Some|].
  exists s, snap. split; [done|]. split; [done|]. split; [by apply Hs|]. split.
  - intros u d lo' hi' Hd Hu Hlo' Hhi'. destruct (Hsn u d Hd Hu) as [A1 A2].
    destruct (Hgd d) as (sd & itd & Ed & _); [by eapply elem_of_list_lookup_2|]. exists sd. destruct (L d _ Ed) as [-> _].
    split; [done|]. split; [by apply A1|]. unfold satg in A2. by rewrite Ed in A2.
  - specialize (Hseg c lo hi Hj Elo Ehi). destruct (Hx c Hc) as (s0' & it0 & Es0' & Ex & _). assert (s0' = s0) as -> by congruence.
    unfold imb, cellp, satg in Hseg. rewrite Ex, Ec, Hj in Hseg. cbn in Hseg. rewrite Ep in Hseg. exact Hseg.
Qed.
Print Assumptions C57_solve.

(** The mobilities of the neighbours may be off by little: so is the equation. *)
Lemma blend_near a b b' : 0 <= a → 0 <= b → 0 <= b' → Rabs (blend a b - blend a b') <= Rabs (b - b').
Proof.
  intros Ha Hb Hb'. destruct (Req_dec a 0) as [->|Ha0]. { rewrite !blend_0_l, Rminus_eq_0, Rabs_R0. apply Rabs_pos. }
  unfold blend. destruct (Rlt_dec 0 (a + b)); [|lra]. destruct (Rlt_dec 0 (a + b')); [|lra].
  replace (a * b / (a + b) - a * b' / (a + b')) with (a / (a + b) * (a / (a + b')) * (b - b')) by (field; lra).
  assert (H : ∀ z, 0 <= z → 0 <= a / (a + z) <= 1).
  { intros z Hz. split; [apply Rmult_le_pos; [lra|apply Rlt_le, Rinv_0_lt_compat; lra]|].
    apply Rmult_le_reg_r with (a + z); [lra|]. unfold Rdiv. rewrite Rmult_assoc, Rinv_l by lra. lra. }
  pose proof (H b Hb) as H1. pose proof (H b' Hb') as H2. set (u := a / (a + b)) in *. set (v := a / (a + b')) in *.
  rewrite !Rabs_mult, (Rabs_right u), (Rabs_right v) by lra. pose proof (Rabs_pos (b - b')).
  assert (u * v <= 1) by nra. nra.
Qed.
Lemma blend_sym a b : blend a b = blend b a.
Proof. unfold blend. rewrite (Rplus_comm b a), (Rmult_comm b a). done. Qed.
Lemma segregate_near Gf m m1 m2 δ : 0 <= m.1 → 0 <= m.2 → 0 <= m1.1 → 0 <= m1.2 → 0 <= m2.1 → 0 <= m2.2 →
  Rabs (m1.1 - m2.1) <= δ → Rabs (m1.2 - m2.2) <= δ → Rabs (segregate Gf m m1 - segregate Gf m m2) <= Rabs Gf * δ.
Proof.
  intros. unfold segregate. destruct (Rlt_dec Gf 0).
  - replace (Gf * blend m.1 m1.2 - Gf * blend m.1 m2.2) with (Gf * (blend m.1 m1.2 - blend m.1 m2.2)) by lra.
    rewrite Rabs_mult. apply Rmult_le_compat_l; [apply Rabs_pos|]. eapply Rle_trans; [by apply blend_near|done].
  - replace (Gf * blend m1.1 m.2 - Gf * blend m2.1 m.2) with (Gf * (blend m.2 m1.1 - blend m.2 m2.1)) by (rewrite !(blend_sym m.2); lra).
    rewrite Rabs_mult. apply Rmult_le_compat_l; [apply Rabs_pos|]. eapply Rle_trans; [by apply blend_near|done].
Qed.
Theorem C57_nearby n (G : nat → R) (M M' : nat → R * R) i dtp s0 (m : R → R * R) s δ :
  0 <= dtp → 0 <= δ → 0 <= (m s).1 → 0 <= (m s).2 →
  (∀ j, j = S i ∨ S j = i → 0 <= (M j).1 ∧ 0 <= (M j).2 ∧ 0 <= (M' j).1 ∧ 0 <= (M' j).2 ∧
        Rabs ((M j).1 - (M' j).1) <= δ ∧ Rabs ((M j).2 - (M' j).2) <= δ) →
  Rabs (column_imbalance n G M i dtp s0 m s - column_imbalance n G M' i dtp s0 m s) <= dtp * (Rabs (G (i - 1)%nat) + Rabs (G i)) * δ.
Proof.
  intros Hd Hδ H1 H2 HM. unfold column_imbalance.
  set (A := if decide (0 < i)%nat then segregate (- G (i - 1)%nat) (m s) (M (i - 1)%nat) else 0).
  set (B := if decide (S i < n)%nat then segregate (G i) (m s) (M (S i)) else 0).
  set (A' := if decide (0 < i)%nat then segregate (- G (i - 1)%nat) (m s) (M' (i - 1)%nat) else 0).
  set (B' := if decide (S i < n)%nat then segregate (G i) (m s) (M' (S i)) else 0).
  assert (HA : Rabs (A - A') <= Rabs (G (i - 1)%nat) * δ).
  { unfold A, A'. destruct (decide (0 < i)%nat) as [Hi|Hi].
    - rewrite <- Rabs_Ropp. destruct (HM (i - 1)%nat) as (? & ? & ? & ? & ? & ?); [right; lia|].
      rewrite <- (Rabs_Ropp (G _)). rewrite Rabs_Ropp. by apply segregate_near.
    - rewrite Rminus_eq_0, Rabs_R0. apply Rmult_le_pos; [apply Rabs_pos|done]. }
  assert (HB : Rabs (B - B') <= Rabs (G i) * δ).
  { unfold B, B'. destruct (decide (S i < n)%nat) as [Hi|Hi].
    - destruct (HM (S i)) as (? & ? & ? & ? & ? & ?); [by left|]. by apply segregate_near.
    - rewrite Rminus_eq_0, Rabs_R0. apply Rmult_le_pos; [apply Rabs_pos|done]. }
  replace (s - s0 - dtp * (A + B) - (s - s0 - dtp * (A' + B'))) with (- (dtp * ((A - A') + (B - B')))) by lra.
  rewrite Rabs_Ropp, Rabs_mult, (Rabs_right dtp) by lra. rewrite Rmult_assoc. apply Rmult_le_compat_l; [done|].
  eapply Rle_trans; [apply Rabs_triang|]. lra.
Qed.
Print Assumptions C57_nearby.

(** ** initGravity *)
Definition fall (dim : nat) (grav cc : list R) (a b : nat) : R :=
  rsum (λ d, default 0 (grav !! d) * (default 0 (cc !! (dim * a + d)%nat) - default 0 (cc !! (dim * b + d)%nat))) (seq 0 dim).
Theorem C57_init g cf dim grav cc drho trans : grid_ok g cf → length trans = u_nf g → length grav = dim → length cc = (dim * u_nc g)%nat →
  ∃ gf, init_gravity g dim grav cc drho trans = Some gf ∧ length gf = u_nf g ∧
    ∀ f a b t, face_between g f a b → trans !! f = Some t →
      gf !! f = Some (t * (drho * (if decide (a ≠ (-1)%Z ∧ b ≠ (-1)%Z) then fall dim grav cc (Z.to_nat a) (Z.to_nat b) else 0))).
Proof.
  intros Hg Ht Hgr Hcc. unfold init_gravity.
  assert (Hdrop : ∀ a b, (Z.to_nat a < u_nc g)%nat → (Z.to_nat b < u_nc g)%nat →
    for_loop dim 0 (grav_dim dim grav cc a b) 0 = Some (fall dim grav cc (Z.to_nat a) (Z.to_nat b))).
  { intros a b Ha Hb. unfold fall.
    destruct (for_loop_inv (λ i s, s = rsum (λ d, default 0 (grav !! d) * (default 0 (cc !! (dim * Z.to_nat a + d)%nat) - default 0 (cc !! (dim * Z.to_nat b + d)%nat))) (seq 0 i))
      dim 0 (grav_dim dim grav cc a b) 0) as (s & E & ->).
    - done.
    - intros i s Hi ->. unfold grav_dim. destruct (lookup_lt_is_Some_2 grav i) as [gd Egd]; [lia|].
      destruct (lookup_lt_is_Some_2 cc (dim * Z.to_nat a + i)%nat) as [xa Exa]; [rewrite Hcc; nia|].
      destruct (lookup_lt_is_Some_2 cc (dim * Z.to_nat b + i)%nat) as [xb Exb]; [rewrite Hcc; nia|].
      rewrite Egd, Exa, Exb. cbn [mbind option_bind]. eexists. split; [reflexivity|].
      rewrite Nat.add_1_r, seq_S, rsum_app. cbn [rsum Nat.add]. rewrite Egd, Exa, Exb. cbn [default from_option]. unfold Datatypes.id. lra.
    - done. }
  destruct (for_loop_inv (λ i l, length l = u_nf g ∧ (∀ f, (i ≤ f)%nat → l !! f = trans !! f) ∧
     ∀ f a b t, (f < i)%nat → face_between g f a b → trans !! f = Some t →
      l !! f = Some (t * (drho * (if decide (a ≠ (-1)%Z ∧ b ≠ (-1)%Z) then fall dim grav cc (Z.to_nat a) (Z.to_nat b) else 0))))
    (u_nf g) 0 (grav_face g dim grav cc drho) trans) as (gf & E & Hl & _ & H).
  - split; [done|]. split; [done|]. intros; lia.
  - intros i l Hi (Hl & Hr & Hd). unfold grav_face.
    destruct (lookup_lt_is_Some_2 (u_facecells g) (2 * i)%nat) as [a Ea]; [rewrite (ok_faces _ _ Hg); lia|].
    destruct (lookup_lt_is_Some_2 (u_facecells g) (2 * i + 1)%nat) as [b Eb]; [rewrite (ok_faces _ _ Hg); lia|].
    rewrite Ea, Eb. cbn [mbind option_bind]. destruct (ok_range _ _ Hg i a b) as (Ra & Rb & _); [done|].
    assert ((if decide (a ≠ (-1)%Z ∧ b ≠ (-1)%Z) then for_loop dim 0 (grav_dim dim grav cc a b) 0 else Some 0) =
      Some (if decide (a ≠ (-1)%Z ∧ b ≠ (-1)%Z) then fall dim grav cc (Z.to_nat a) (Z.to_nat b) else 0)) as ->.
    { destruct (decide _) as [[? ?]|]; [|done]. apply Hdrop; lia. }
    cbn [mbind option_bind]. rewrite (Hr i) by lia. destruct (lookup_lt_is_Some_2 trans i) as [t Et]; [lia|]. rewrite Et. cbn [mbind option_bind].
    rewrite upd_Some by lia. eexists. split; [reflexivity|]. split; [by rewrite insert_length|]. split.
    + intros f Hf. rewrite list_lookup_insert_ne by lia. apply Hr. lia.
    + intros f a' b' t' Hf [Ha' Hb'] Ht'. destruct (decide (f = i)) as [->|Hne].
      * simplify_eq. by rewrite list_lookup_insert by lia.
      * rewrite list_lookup_insert_ne by lia. apply Hd; [lia|done|done].
  - exists gf. split; [done|]. split; [done|]. intros f a b t Hf Hft. apply H; [|done|done]. apply lookup_lt_Some in Hft. simpl. lia.
Qed.
Print Assumptions C57_init.
(** Heavier water flows down: if the first cell is above the second along
    gravity, water leaves it. *)
Theorem C57_falls t drho z m1 m2 : 0 <= t → 0 <= drho → z <= 0 → 0 <= m1.1 → 0 <= m1.2 → 0 <= m2.1 → 0 <= m2.2 →
  segregate (t * (drho * z)) m1 m2 <= 0.
Proof.
  intros. assert (0 <= t * drho) by nra. assert (Hz : t * (drho * z) <= 0) by nra. unfold segregate. destruct (Rlt_dec _ 0).
  - pose proof (blend_nonneg m1.1 m2.2). nra.
  - assert (E : t * (drho * z) = 0) by lra. rewrite E. lra.
Qed.

Print Assumptions C57_falls.

(** ** Cases *)
Lemma straight_range nc vw vo : 0 < vw → 0 < vo → segregation_ok nc straight vw vo (replicate nc 0) (replicate nc 1).
Proof.
  intros. split; [done|done|by rewrite replicate_length|by rewrite replicate_length|].
  intros c lo hi Hlo Hhi. apply lookup_replicate in Hlo as [-> _]. apply lookup_replicate in Hhi as [-> _].
  unfold straight. cbn [fst snd]. repeat split; lra.
Qed.
(** Three cells, the first on top; water is heavier. *)
Example C57_example : gravity_ok line line_cf [-2;-3] [5;6;7] 2 straight 1 5 [0;0;0] [1;1;1] (/ 1000).
Proof.
  split; try done; [apply line_ok| |lra|lra|apply (straight_range 3); lra].
  intros c p Hc. destruct c as [|[|[|c]]]; simpl in Hc; simplify_eq; lra.
Qed.
Example C57_example_init : init_gravity line 1 [10] [0;1;3] 2 [1;1] = Some [1 * (2 * (0 + 10 * (0 - 1))); 1 * (2 * (0 + 10 * (1 - 3)))].
Proof. reflexivity. Qed.

(** With two faces between a cell and the next, only the flux of the last counts. *)
Definition twice_cf : list (list nat) := [[0;1];[0;1]]%nat.
Definition twice : ugrid := UGrid 2 2 [0;2;4]%nat [0;1;0;1]%nat [0;1;0;1]%Z.
Lemma twice_ok : grid_ok twice twice_cf.
Proof.
  assert (Hf : ∀ f a b, face_between twice f a b → (f < 2)%nat).
  { intros f a b [_ H]. apply lookup_lt_Some in H. simpl in H. lia. }
  split.
  - done.
  - apply (starts_holds twice_cf).
  - done.
  - intros f a b H. pose proof (Hf _ _ _ H). destruct H as [H1 H2].
    do 2 (destruct f as [|f]; [vm_compute in H1, H2; simplify_eq; simpl; lia|]). lia.
  - intros i r Hi. do 2 (destruct i as [|i]; [simplify_eq/=; by apply (bool_decide_unpack _)|]). done.
  - intros i r f Hi. split.
    + intros H. do 2 (destruct i as [|i]; [simplify_eq/=;
        repeat (apply elem_of_cons in H as [->|H]; [eexists _, _; split; [split; done|simpl; lia]|]); by apply elem_of_nil in H|]). done.
    + intros (a & b & H & Hab). pose proof (Hf _ _ _ H). destruct H as [H1 H2].
      do 2 (destruct f as [|f]; [vm_compute in H1, H2; simplify_eq;
        do 2 (destruct i as [|i]; [simplify_eq/=; try lia; by apply (bool_decide_unpack _)|]); done|]). lia.
Qed.
Theorem C57_faces_refuted : ∃ g cf gravflux cells G, grid_ok g cf ∧ length gravflux = u_nf g ∧
  col_fluxes g gravflux cells = Some G ∧
  ∃ a b, cells = [a; b] ∧ (∀ f, (f < u_nf g)%nat → face_between g f (Z.of_nat a) (Z.of_nat b)) ∧ G ≠ [rsum (λ x, x) gravflux].
Proof.
  exists twice, twice_cf, [1;2], [0;1]%nat, [2]. split; [apply twice_ok|]. split; [done|]. split; [reflexivity|].
  exists 0%nat, 1%nat. split; [done|]. split.
  - intros f Hf. cbn in Hf. destruct f as [|[|f]]; [done|done|lia].
  - cbn [rsum]. intros [=]. lra.
Qed.
Print Assumptions C57_faces_refuted.
