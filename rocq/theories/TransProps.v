(** C43: two-point transmissibilities. *)
From Coq Require Import Reals Lra Psatz.
From Verif Require Import Base GridModel GridSpec LoopModel LoopProof CsrSpec TableModel TofSpec TofProof
  UTableProof ReorderProps AccModel AccProof HalfProof TransModel.
Local Open Scope R_scope.

(** ** Specification *)
(** Coordinate [j] of row [r] of an array with [d] coordinates per row. *)
Definition coord (l : list R) (d r j : nat) : R := default 0 (l !! (r * d + j)%nat).
Section spec.
Variable ge : ugeom.
Variable perm : list R.
Notation d := (ge_d ge).
(** From the centroid of cell [c] to that of face [f]. *)
Definition dist (c f j : nat) : R := coord (ge_fc ge) d f j - coord (ge_cc ge) d c j.
(** The permeability tensor of cell [c] (stored by columns) times the normal of [f]. *)
Definition Kn (c f i : nat) : R :=
  rsum (λ j, default 0 (perm !! (c * d * d + (i + j * d))%nat) * coord (ge_n ge) d f j) (seq 0 d).
Definition dist2 (c f : nat) : R := rsum (λ j, dist c f j * dist c f j) (seq 0 d).
(** One-sided transmissibility: c·K·n / c·c. *)
Definition one_sided (c f : nat) : R :=
  Rabs (rsum (λ j, dist c f j * Kn c f j) (seq 0 d)) / dist2 c f.
End spec.
Record geom_ok (g : ugrid) (ge : ugeom) (perm : list R) : Prop := {
  go_dim : (ge_d ge <= 3)%nat;
  go_fc : length (ge_fc ge) = (u_nf g * ge_d ge)%nat;
  go_n : length (ge_n ge) = (u_nf g * ge_d ge)%nat;
  go_cc : length (ge_cc ge) = (u_nc g * ge_d ge)%nat;
  go_perm : length perm = (u_nc g * (ge_d ge * ge_d ge))%nat }.

Section htrans.
Context (g : ugrid) (ge : ugeom) (cf : list (list nat)) (perm : list R).
Context (Hg : grid_ok g cf) (Ho : geom_ok g ge perm).
Notation d := (ge_d ge).

Lemma dim_loop s K n fc cc k h0 e0 : length fc = d → length cc = d → (k <= d)%nat →
  for_loop k (d - k) (htrans_dim ge s K n fc cc) (h0, e0) = Some
    (h0 + s * rsum (λ j, (default 0 (fc !! j) - default 0 (cc !! j)) * dgemv_row d K n j) (seq (d - k) k),
     e0 + rsum (λ j, (default 0 (fc !! j) - default 0 (cc !! j)) * (default 0 (fc !! j) - default 0 (cc !! j))) (seq (d - k) k)).
Proof using Type.
  intros Hf Hc. revert h0 e0. induction k as [|k IH]; intros h0 e0 Hk.
  - simpl. do 2 f_equal; lra.
  - cbn [for_loop]. unfold htrans_dim at 2.
    destruct (lookup_lt_is_Some_2 fc (d - S k)) as [x Ex]; [lia|].
    destruct (lookup_lt_is_Some_2 cc (d - S k)) as [y Ey]; [lia|].
    rewrite Ex, Ey. cbn [mbind option_bind fst snd].
    replace (S (d - S k)) with (d - k)%nat by lia. rewrite IH by lia. cbn [seq rsum].
    rewrite Ex, Ey. cbn [default from_option]. replace (S (d - S k)) with (d - k)%nat by lia.
    unfold Datatypes.id; do 2 f_equal; ring.
Qed.
Lemma foldr_rsum {A} (h : A → R) l : foldr Rplus 0 (map h l) = rsum h l.
Proof using Type. induction l as [|x l IH]; simpl; [done|]. by rewrite IH. Qed.

Lemma htrans_body_eq c i f ht : half g c f i → 0 < dist2 ge c f →
  htrans_body g ge perm c i ht = upd ht i (one_sided ge perm c f).
Proof using Hg Ho.
  intros Hh Hd. pose proof (half_face_lt _ _ Hg _ _ _ Hh) as Hf.
  pose proof (proj1 (half_iff _ _ Hg _ _ _) Hh) as [Hi Ef].
  pose proof (half_lt _ _ Hg _ _ Hi) as [Hc _].
  destruct (half_cells _ _ Hg _ _ _ Hh) as (a & b & [Ea Eb] & Hab).
  destruct Ho as [H3 Hlf Hln Hlc Hlp]. unfold htrans_body. rewrite decide_True by done.
  rewrite (slice_Some perm) by nia. cbn [mbind option_bind].
  rewrite (slice_Some (ge_cc ge)) by nia. cbn [mbind option_bind]. rewrite Ef. cbn [mbind option_bind].
  rewrite Ea. cbn [mbind option_bind].
  rewrite (slice_Some (ge_n ge)) by nia. cbn [mbind option_bind].
  rewrite (slice_Some (ge_fc ge)) by nia. cbn [mbind option_bind].
  pose proof (dim_loop (if decide (a = Z.of_nat c) then 1 else -1) (take (d * d) (drop (c * d * d) perm))
     (take d (drop (f * d) (ge_n ge))) (take d (drop (f * d) (ge_fc ge))) (take d (drop (c * d) (ge_cc ge))) d 0 0) as E.
  rewrite Nat.sub_diag in E. rewrite E; [|rewrite take_length, drop_length; nia..|lia].
  cbn [mbind option_bind].
  assert (Hsl : ∀ (l : list R) o n j, (j < n)%nat → take n (drop o l) !! j = l !! (o + j)%nat).
  { intros l o n j Hj. rewrite lookup_take by done. by rewrite lookup_drop. }
  rewrite (rsum_ext (λ j, _ * dgemv_row _ _ _ j) (λ j, dist ge c f j * Kn ge perm c f j)).
  2: { intros j Hj. apply elem_of_seq in Hj. unfold dist, coord. rewrite !Hsl by lia. f_equal.
       unfold dgemv_row, Kn. rewrite foldr_rsum. apply rsum_ext. intros k Hk. apply elem_of_seq in Hk.
       unfold coord. rewrite !Hsl by nia. done. }
  rewrite (rsum_ext (λ j, _ * (_ - _)) (λ j, dist ge c f j * dist ge c f j)).
  2: { intros j Hj. apply elem_of_seq in Hj. unfold dist, coord. rewrite !Hsl by lia. done. }
  fold (dist2 ge c f). rewrite !Rplus_0_l. destruct (Rlt_dec 0 (dist2 ge c f)); [|done].
  f_equal. unfold one_sided. set (x := rsum _ _). unfold Rdiv. rewrite !Rabs_mult.
  rewrite (Rabs_pos_eq (/ _)) by (left; by apply Rinv_0_lt_compat). f_equal.
  destruct (decide (a = Z.of_nat c)).
  - rewrite Rabs_R1. lra.
  - rewrite (Rabs_left (-1)) by lra. lra.
Qed.
End htrans.

(** ** C43, one-sided transmissibilities.  For every grid whose cell centroids
    differ from the centroids of their faces, tpfa_htrans_compute stays inside
    its arrays and stores |c·K·n|/|c|² for each half-face, whichever of the two
    sides of the face the cell is on. *)
Theorem C43_htrans g ge cf perm ht :
  grid_ok g cf → geom_ok g ge perm → length ht = length (u_cellfaces g) →
  (∀ c f i, half g c f i → 0 < dist2 ge c f) →
  ∃ ht', htrans_compute g ge perm ht = Some ht' ∧ length ht' = length (u_cellfaces g) ∧
    ∀ c f i, half g c f i → ht' !! i = Some (one_sided ge perm c f) ∧ 0 <= one_sided ge perm c f.
Proof.
  intros Hg Ho Hl Hd. unfold htrans_compute. rewrite <- (ok_cells _ _ Hg).
  rewrite (csr_loop_run _ cf _ _ _ (ok_rows _ _ Hg)).
  destruct (run_upd (λ ci, htrans_body g ge perm ci.1 ci.2) snd
    (λ ci, one_sided ge perm ci.1 (default 0%nat (u_cellfaces g !! ci.2))) (length (u_cellfaces g)) (halves 0 0 cf) ht)
    as (ht' & E & Hl' & Hv & _); [..|done|].
  - intros [c i] s Hc Hs. cbn [fst snd]. destruct (half_row _ _ Hg _ _ Hc) as (r & b & t & f & _ & _ & _ & _ & _ & Hf).
    rewrite Hf. assert (Hh : half g c f i) by (apply (half_iff _ _ Hg); done).
    rewrite (htrans_body_eq _ _ _ _ Hg Ho _ _ _ _ Hh (Hd _ _ _ Hh)). done.
  - intros [c i] Hc. cbn [snd]. apply (half_lt _ _ Hg _ _ Hc).
  - pose proof (halves_snd cf 0 0) as Hs. change (map snd (halves 0 0 cf)) with ((halves 0 0 cf).*2).
    rewrite Hs. apply NoDup_seq.
  - exists ht'. split_and!; try done. intros c f i Hh. pose proof (proj1 (half_iff _ _ Hg _ _ _) Hh) as [Hc Hf].
    specialize (Hv _ Hc). cbn [fst snd] in Hv. rewrite Hf in Hv. split; [done|].
    unfold one_sided. apply Rmult_le_pos; [apply Rabs_pos|]. left. apply Rinv_0_lt_compat. by eapply Hd.
Qed.
Print Assumptions C43_htrans.

(** The value is positive exactly when c·K·n is not zero.  In particular it is
    positive for a positive definite tensor and a face normal along the line
    of the centroids, as in a Cartesian grid. *)
Theorem C43_htrans_positive ge perm c f : 0 < dist2 ge c f →
  (0 < one_sided ge perm c f ↔ rsum (λ j, dist ge c f j * Kn ge perm c f j) (seq 0 (ge_d ge)) ≠ 0).
Proof.
  intros Hd. unfold one_sided. pose proof (Rinv_0_lt_compat _ Hd) as Hi. split.
  - intros Hp E. rewrite E, Rabs_R0 in Hp. unfold Rdiv in Hp. rewrite Rmult_0_l in Hp. lra.
  - intros Hn. apply Rmult_lt_0_compat; [|done]. by apply Rabs_pos_lt.
Qed.
Print Assumptions C43_htrans_positive.
Theorem C43_htrans_aligned ge perm c f t : 0 < dist2 ge c f →
  (∀ v : nat → R, 0 < rsum (λ j, v j * v j) (seq 0 (ge_d ge)) →
     0 < rsum (λ i, v i * rsum (λ j, default 0 (perm !! (c * ge_d ge * ge_d ge + (i + j * ge_d ge))%nat) * v j)
       (seq 0 (ge_d ge))) (seq 0 (ge_d ge))) →
  t ≠ 0 → (∀ j, (j < ge_d ge)%nat → coord (ge_n ge) (ge_d ge) f j = t * dist ge c f j) →
  0 < one_sided ge perm c f.
Proof.
  intros Hd Hk Ht Hn. apply C43_htrans_positive; [done|].
  rewrite (rsum_ext _ (λ i, t * (dist ge c f i * rsum (λ j, default 0 (perm !! (c * ge_d ge * ge_d ge + (i + j * ge_d ge))%nat) * dist ge c f j)
       (seq 0 (ge_d ge))))).
  - rewrite rsum_scale. pose proof (Hk (dist ge c f) Hd). intros E. apply Rmult_integral in E as [E|E]; lra.
  - intros i _. unfold Kn.
    rewrite (rsum_ext _ (λ j, t * (default 0 (perm !! (c * ge_d ge * ge_d ge + (i + j * ge_d ge))%nat) * dist ge c f j))).
    + rewrite rsum_scale. ring.
    + intros j Hj. apply elem_of_seq in Hj. rewrite Hn by lia. ring.
Qed.
Print Assumptions C43_htrans_aligned.

(** ** C43, face transmissibilities *)
Lemma zero_loop n tr : length tr = n → for_loop n 0 zero_body tr = Some (replicate n 0).
Proof.
  intros Hl. destruct (for_loop_each (λ _ _, Some 0) zero_body n tr) as (tr' & E & Hl' & Hv).
  - intros i s Hi Hs. destruct (lookup_lt_is_Some_2 s i) as [x Ex]; [lia|]. rewrite Ex. done.
  - done.
  - eauto.
  - rewrite E. f_equal. apply list_eq. intros i. destruct (decide (i < n)%nat) as [Hi|Hi].
    + rewrite lookup_replicate_2 by done. destruct (lookup_lt_is_Some_2 tr i) as [x Ex]; [lia|]. by apply (Hv i x).
    + rewrite lookup_ge_None_2 by lia. rewrite lookup_ge_None_2; [done|]. rewrite replicate_length. lia.
Qed.
(** Both functions: reciprocals added per face, then the reciprocal. *)
Lemma recip_sum g cf body (w : nat * nat → R) tr :
  grid_ok g cf → length tr = u_nf g →
  (∀ c f i s, half g c f i → body c i s = addto s f (w (c, i))) →
  (∀ f, (f < u_nf g)%nat → rsum (λ ci, if decide (u_cellfaces g !! ci.2 = Some f) then w ci else 0) (halves 0 0 cf) ≠ 0) →
  ∃ tr', (trans ← for_loop (u_nf g) 0 zero_body tr;
      trans ← csr_loop (u_nc g) (u_facepos g) body trans;
      for_loop (u_nf g) 0 recip_body trans) = Some tr' ∧ length tr' = u_nf g ∧
    ∀ f, (f < u_nf g)%nat →
      tr' !! f = Some (/ rsum (λ ci, if decide (u_cellfaces g !! ci.2 = Some f) then w ci else 0) (halves 0 0 cf)).
Proof.
  intros Hg Hl Hb Hnz. rewrite zero_loop by done. cbn [mbind option_bind].
  rewrite <- (ok_cells _ _ Hg), (csr_loop_run _ cf _ _ _ (ok_rows _ _ Hg)).
  rewrite (run_accs _ (λ ci, [(default 0%nat (u_cellfaces g !! ci.2), w ci)])).
  2: { intros [c i] s Hc. cbn [fst snd]. destruct (half_row _ _ Hg _ _ Hc) as (r & b & t & f & _ & _ & _ & _ & _ & Hf).
       rewrite (Hb c f i) by (apply (half_iff _ _ Hg); done). rewrite Hf. cbn [accs fst snd default from_option].
       unfold Datatypes.id. by destruct (addto s f (w (c, i))). }
  destruct (accs_ok (replicate (u_nf g) 0) (concat (map (λ ci, [(default 0%nat (u_cellfaces g !! ci.2), w ci)]) (halves 0 0 cf))))
    as [t1 E1].
  { intros k v Hk. apply elem_of_list_In, in_concat in Hk as (l & Hk & Hkv).
    apply in_map_iff in Hk as ([c i] & <- & Hc). apply elem_of_list_In in Hc.
    destruct Hkv as [[= <- <-]|[]]. cbn [fst snd]. rewrite replicate_length.
    destruct (half_row _ _ Hg _ _ Hc) as (r & b & t & f & _ & _ & _ & _ & _ & Hf). rewrite Hf.
    eapply (half_face_lt _ _ Hg c f i). apply (half_iff _ _ Hg). done. }
  rewrite E1. cbn [mbind option_bind]. apply accs_inv in E1 as [Hl1 Hv1]. rewrite replicate_length in Hl1.
  assert (Hv : ∀ f, (f < u_nf g)%nat → t1 !! f = Some (rsum (λ ci, if decide (u_cellfaces g !! ci.2 = Some f) then w ci else 0) (halves 0 0 cf))).
  { intros f Hf. rewrite Hv1, lookup_replicate_2 by done. cbn [fmap option_fmap option_map]. f_equal.
    rewrite tally_concat, Rplus_0_l. apply rsum_ext. intros [c i] Hc. rewrite tally_cons, tally_nil. cbn [snd].
    destruct (half_row _ _ Hg _ _ Hc) as (r & b & t & f' & _ & _ & _ & _ & _ & Hf'). rewrite Hf'.
    change (default 0%nat (Some f')) with f'. destruct (decide (f' = f)) as [->|Hn].
    - rewrite decide_True by done. lra.
    - rewrite decide_False by congruence. lra. }
  destruct (for_loop_each (λ _ x, rdiv 1 x) recip_body (u_nf g) t1) as (t2 & E2 & Hl2 & Hv2).
  - intros i s Hi Hs. unfold recip_body. done.
  - done.
  - intros i x Hx. assert (Hi : (i < u_nf g)%nat) by (rewrite <- Hl1; by eapply lookup_lt_Some).
    rewrite (Hv i Hi) in Hx. injection Hx as <-. rewrite rdiv_Some by auto. eauto.
  - exists t2. split_and!; try done. intros f Hf. rewrite (Hv2 f _ (Hv f Hf)). rewrite rdiv_Some by auto.
    f_equal. unfold Rdiv. lra.
Qed.

(** Two-point combination of the values on the two sides; a face on the
    boundary has the value of its only side. *)
Definition harmonic (x y : R) : R := x * y / (x + y).
Lemma harmonic_facts x y : 0 < x → 0 < y →
  0 < harmonic x y ∧ harmonic x y < x ∧ harmonic x y < y ∧ harmonic x y = harmonic y x ∧ / harmonic x y = / x + / y.
Proof.
  intros Hx Hy. unfold harmonic. assert (Hxy : 0 < x * y) by nra. split_and!.
  - apply Rmult_lt_0_compat; [done|]. apply Rinv_0_lt_compat. lra.
  - apply (Rmult_lt_reg_r (x + y)); [lra|]. replace (x * y / (x + y) * (x + y)) with (x * y) by (field; lra). nra.
  - apply (Rmult_lt_reg_r (x + y)); [lra|]. replace (x * y / (x + y) * (x + y)) with (x * y) by (field; lra). nra.
  - field. lra.
  - field. lra.
Qed.

Section faces.
Context (g : ugrid) (cf : list (list nat)) (Hg : grid_ok g cf).
(** Every face has a cell on at least one side. *)
Context (Hsides : ∀ f a b, face_between g f a b → (0 <= a)%Z ∨ (0 <= b)%Z).

(** The possible situations of a face, with its half-faces. *)
Lemma face_cases f : (f < u_nf g)%nat →
  (∃ a b i j, face_between g f (Z.of_nat a) (Z.of_nat b) ∧ half g a f i ∧ half g b f j) ∨
  (∃ c i, (face_between g f (Z.of_nat c) (-1) ∨ face_between g f (-1) (Z.of_nat c)) ∧ half g c f i).
Proof using Hg Hsides.
  intros Hf. destruct (face_data _ _ Hg f Hf) as (a & b & Hab).
  pose proof (ok_range _ _ Hg _ _ _ Hab) as (Ha & Hb & _). pose proof (Hsides _ _ _ Hab) as Hs.
  destruct (decide (a = -1)%Z) as [->|Hna]; [|destruct (decide (b = -1)%Z) as [->|Hnb]].
  - right. destruct (half_exists _ _ Hg (Z.to_nat b) f (-1)%Z b) as [i Hi]; [lia|done|right; lia|].
    exists (Z.to_nat b), i. rewrite Z2Nat.id by lia. auto.
  - right. destruct (half_exists _ _ Hg (Z.to_nat a) f a (-1)%Z) as [i Hi]; [lia|done|left; lia|].
    exists (Z.to_nat a), i. rewrite Z2Nat.id by lia. auto.
  - left. destruct (half_exists _ _ Hg (Z.to_nat a) f a b) as [i Hi]; [lia|done|left; lia|].
    destruct (half_exists _ _ Hg (Z.to_nat b) f a b) as [j Hj]; [lia|done|right; lia|].
    exists (Z.to_nat a), (Z.to_nat b), i, j. rewrite !Z2Nat.id by lia. auto.
Qed.
Lemma recip_pos (w : nat * nat → R) f : (∀ ci, ci ∈ halves 0 0 cf → 0 < w ci) → (f < u_nf g)%nat →
  rsum (λ ci, if decide (u_cellfaces g !! ci.2 = Some f) then w ci else 0) (halves 0 0 cf) ≠ 0.
Proof using Hg Hsides.
  intros Hw Hf. destruct (face_cases f Hf) as [(a & b & i & j & Hab & Hi & Hj)|(c & i & Hc & Hi)].
  - rewrite (rsum_face_two _ _ Hg _ _ _ _ _ _ Hab Hi Hj).
    apply (half_iff _ _ Hg) in Hi as [Hi _], Hj as [Hj _]. pose proof (Hw _ Hi). pose proof (Hw _ Hj). lra.
  - assert (E : rsum (λ ci, if decide (u_cellfaces g !! ci.2 = Some f) then w ci else 0) (halves 0 0 cf) = w (c, i)).
    { destruct Hc as [Hc|Hc]; eapply (rsum_face_one _ _ Hg _ _ _ _ _ _ Hc); auto. }
    rewrite E. apply (half_iff _ _ Hg) in Hi as [Hi _]. pose proof (Hw _ Hi). lra.
Qed.

(** What the two functions give, [v c i] being the one-sided value. *)
Definition combined (v : nat → nat → R) (tr : list R) : Prop :=
  (∀ f a b i j, face_between g f (Z.of_nat a) (Z.of_nat b) → half g a f i → half g b f j →
     tr !! f = Some (harmonic (v a i) (v b j))) ∧
  (∀ f c i, face_between g f (Z.of_nat c) (-1) ∨ face_between g f (-1) (Z.of_nat c) → half g c f i →
     tr !! f = Some (v c i)).
Lemma combined_of (v : nat → nat → R) tr :
  (∀ c i, (c, i) ∈ halves 0 0 cf → 0 < v c i) →
  (∀ f, (f < u_nf g)%nat → tr !! f = Some (/ rsum (λ ci, if decide (u_cellfaces g !! ci.2 = Some f)
       then / v ci.1 ci.2 else 0) (halves 0 0 cf))) → combined v tr.
Proof using Hg.
  intros Hv Ht. split.
  - intros f a b i j Hab Hi Hj. rewrite Ht by (eapply half_face_lt; eauto).
    rewrite (rsum_face_two _ _ Hg _ _ _ _ _ _ Hab Hi Hj). cbn [fst snd]. f_equal.
    apply (half_iff _ _ Hg) in Hi as [Hi _], Hj as [Hj _].
    pose proof (harmonic_facts _ _ (Hv _ _ Hi) (Hv _ _ Hj)) as (Hp & _ & _ & _ & E).
    rewrite <- E. apply Rinv_inv.
  - intros f c i Hc Hi. rewrite Ht by (eapply half_face_lt; eauto).
    assert (E : rsum (λ ci, if decide (u_cellfaces g !! ci.2 = Some f) then / v ci.1 ci.2 else 0) (halves 0 0 cf) = / v c i).
    { destruct Hc as [Hc|Hc]; rewrite (rsum_face_one _ _ Hg (λ ci, / v ci.1 ci.2) _ _ _ c i Hc); auto. }
    rewrite E. f_equal. apply Rinv_inv.
Qed.
End faces.

(** tpfa_trans_compute: every internal face gets the harmonic combination of
    the two half-face values, a boundary face the value of its cell; all are
    positive; an internal one is below both halves and does not depend on the
    order of the cells. *)
Theorem C43_trans g cf ht tr :
  grid_ok g cf → (∀ f a b, face_between g f a b → (0 <= a)%Z ∨ (0 <= b)%Z) →
  length ht = length (u_cellfaces g) → (∀ h, h ∈ ht → 0 < h) → length tr = u_nf g →
  ∃ tr', trans_compute g ht tr = Some tr' ∧ length tr' = u_nf g ∧
    combined g (λ _ i, default 0 (ht !! i)) tr' ∧ (∀ t, t ∈ tr' → 0 < t) ∧
    (∀ x y, 0 < x → 0 < y → harmonic x y < x ∧ harmonic x y < y ∧ harmonic x y = harmonic y x).
Proof.
  intros Hg Hs Hl Hp Ht.
  assert (Hpos : ∀ c i, (c, i) ∈ halves 0 0 cf → 0 < default 0 (ht !! i)).
  { intros c i Hc. destruct (half_lt _ _ Hg _ _ Hc) as [_ Hi].
    destruct (lookup_lt_is_Some_2 ht i) as [h Eh]; [lia|]. rewrite Eh. apply Hp. by eapply elem_of_list_lookup_2. }
  destruct (recip_sum g cf (trans_body g ht) (λ ci, / default 0 (ht !! ci.2)) tr) as (tr' & E & Hl' & Hv); try done.
  - intros c f i s Hh. unfold trans_body. apply (half_iff _ _ Hg) in Hh as [Hc Hf]. rewrite Hf. cbn [mbind option_bind].
    pose proof (Hpos _ _ Hc) as H0. destruct (ht !! i) as [h|] eqn:Eh; [|simpl in H0; lra]. cbn [mbind option_bind].
    cbn [default from_option] in H0. unfold Datatypes.id in H0. rewrite rdiv_Some by lra. cbn [mbind option_bind snd]. rewrite Eh. cbn [default from_option].
    unfold Datatypes.id, Rdiv. by rewrite Rmult_1_l.
  - intros f Hf. apply (recip_pos _ _ Hg Hs (λ ci, / default 0 (ht !! ci.2))); [|done]. intros [c i] Hc. cbn [snd].
    apply Rinv_0_lt_compat. by eapply Hpos.
  - exists tr'.
    assert (HC : combined g (λ _ i, default 0 (ht !! i)) tr').
    { apply (combined_of _ _ Hg); [done|]. intros f Hf. by rewrite Hv. }
    split_and!; try done.
    + intros t Hin. apply elem_of_list_lookup in Hin as [f Hf]. assert (Hlt : (f < u_nf g)%nat) by (rewrite <- Hl'; by eapply lookup_lt_Some).
      destruct HC as [H1 H2]. destruct (face_cases _ _ Hg Hs f Hlt) as [(a & b & i & j & Hab & Hi & Hj)|(c & i & Hc & Hi)].
      * rewrite (H1 _ _ _ _ _ Hab Hi Hj) in Hf. injection Hf as <-.
        apply (half_iff _ _ Hg) in Hi as [Hi _], Hj as [Hj _]. by apply harmonic_facts; eapply Hpos.
      * rewrite (H2 _ _ _ Hc Hi) in Hf. injection Hf as <-. apply (half_iff _ _ Hg) in Hi as [Hi _]. by eapply Hpos.
    + intros x y Hx Hy. pose proof (harmonic_facts x y Hx Hy). tauto.
Qed.
Print Assumptions C43_trans.

(** tpfa_eff_trans_compute: the same with each half-face value multiplied by
    the total mobility of its cell. *)
Theorem C43_eff_trans g cf totmob ht tr :
  grid_ok g cf → (∀ f a b, face_between g f a b → (0 <= a)%Z ∨ (0 <= b)%Z) →
  length totmob = u_nc g → (∀ m, m ∈ totmob → 0 < m) →
  length ht = length (u_cellfaces g) → (∀ h, h ∈ ht → 0 < h) → length tr = u_nf g →
  ∃ tr', eff_trans_compute g totmob ht tr = Some tr' ∧ length tr' = u_nf g ∧
    combined g (λ c i, default 0 (totmob !! c) * default 0 (ht !! i)) tr'.
Proof.
  intros Hg Hs Hlm Hm Hl Hp Ht.
  assert (Hpos : ∀ c i, (c, i) ∈ halves 0 0 cf → ∃ m h, totmob !! c = Some m ∧ ht !! i = Some h ∧ 0 < m ∧ 0 < h ∧ 0 < m * h).
  { intros c i Hc. destruct (half_lt _ _ Hg _ _ Hc) as [Hc' Hi].
    destruct (lookup_lt_is_Some_2 ht i) as [h Eh]; [lia|]. destruct (lookup_lt_is_Some_2 totmob c) as [m Em]; [lia|].
    assert (0 < h) by (apply Hp; by eapply elem_of_list_lookup_2).
    assert (0 < m) by (apply Hm; by eapply elem_of_list_lookup_2).
    exists m, h. split_and!; try done. nra. }
  destruct (recip_sum g cf (eff_trans_body g totmob ht) (λ ci, / (default 0 (totmob !! ci.1) * default 0 (ht !! ci.2))) tr) as (tr' & E & Hl' & Hv); try done.
  - intros c f i s Hh. unfold eff_trans_body. apply (half_iff _ _ Hg) in Hh as [Hc Hf]. rewrite Hf. cbn [mbind option_bind fst snd].
    destruct (Hpos _ _ Hc) as (m & h & Em & Eh & ? & ? & ?). rewrite Em, Eh. cbn [mbind option_bind]. rewrite rdiv_Some by lra. cbn [mbind option_bind default from_option].
    unfold Datatypes.id, Rdiv. by rewrite Rmult_1_l.
  - intros f Hf. apply (recip_pos _ _ Hg Hs (λ ci, / (default 0 (totmob !! ci.1) * default 0 (ht !! ci.2)))); [|done]. intros [c i] Hc. cbn [fst snd].
    apply Rinv_0_lt_compat. destruct (Hpos _ _ Hc) as (m & h & Em & Eh & ? & ? & ?). rewrite Em, Eh. done.
  - exists tr'. split_and!; try done. apply (combined_of _ _ Hg).
    + intros c i Hc. destruct (Hpos _ _ Hc) as (m & h & Em & Eh & ? & ? & ?). rewrite Em, Eh. done.
    + intros f Hf. by rewrite Hv.
Qed.
Print Assumptions C43_eff_trans.

(** A ring of three cells in the plane with identity permeabilities: the two
    functions run one after the other, and the face between the cells 0 and 1
    gets the value 1/2. *)
Definition ring_ge : ugeom := UGeom 2
  [1; 0; 3/2; 1; 1/2; 1; -1; 0; 1; 3] [1; 0; -1; 2; -1; -2; 1; 0; 0; 1] [0; 0; 2; 0; 1; 2].
Definition ring_perm : list R := [1; 0; 0; 1; 1; 0; 0; 1; 1; 0; 0; 1].
Lemma ring_half c f i : half ring c f i → (c, f, i) ∈
  [(0, 3, 0); (0, 0, 1); (0, 2, 2); (1, 0, 3); (1, 1, 4); (2, 1, 5); (2, 4, 6); (2, 2, 7)]%nat.
Proof.
  intros (b & e & Hb & He & Hi & Hf).
  do 3 (destruct c as [|c]; [cbn in Hb, He; injection Hb as <-; injection He as <-;
    do 8 (destruct i as [|i]; [try lia; cbn in Hf; injection Hf as <-; repeat constructor|]); lia|]).
  apply lookup_lt_Some in He. simpl in He. lia.
Qed.
Lemma ring_dist2 c f i : half ring c f i → 0 < dist2 ring_ge c f.
Proof.
  intros H%ring_half. repeat (apply elem_of_cons in H as [[= -> -> ->]|H]; [cbv -[Rplus Rmult Rminus Rdiv Rlt IZR]; lra|]).
  by apply elem_of_nil in H.
Qed.
Lemma ring_positive c f i : half ring c f i → 0 < one_sided ring_ge ring_perm c f.
Proof.
  intros Hh. pose proof (ring_dist2 _ _ _ Hh). apply C43_htrans_positive; [done|]. apply ring_half in Hh.
  repeat (apply elem_of_cons in Hh as [[= -> -> ->]|Hh]; [unfold dist, Kn, coord; cbn -[IZR]; unfold Datatypes.id; lra|]).
  by apply elem_of_nil in Hh.
Qed.
Example C43_example : ∃ ht tr,
  htrans_compute ring ring_ge ring_perm (replicate 8 7) = Some ht ∧
  trans_compute ring ht (replicate 5 7) = Some tr ∧ tr !! 0%nat = Some (1 / 2).
Proof.
  destruct (C43_htrans ring ring_ge ring_cf ring_perm (replicate 8 7)) as (ht & E & Hl & Hv).
  { apply ring_ok. }
  { split; try done. simpl. lia. }
  { done. }
  { apply ring_dist2. }
  destruct (C43_trans ring ring_cf ht (replicate 5 7)) as (tr & E2 & _ & [Hc _] & _).
  { apply ring_ok. }
  { intros f a b [Ha Hb]. assert (f < 5)%nat by (apply lookup_lt_Some in Hb; simpl in Hb; lia).
    do 5 (destruct f as [|f]; [cbn in Ha, Hb; simplify_eq; lia|]). lia. }
  { done. }
  { intros h Hh. apply elem_of_list_lookup in Hh as [i Hi]. pose proof (lookup_lt_Some _ _ _ Hi) as Hlt.
    rewrite Hl in Hlt. destruct (lookup_lt_is_Some_2 (u_cellfaces ring) i) as [f Hf]; [done|].
    assert (∃ c, half ring c f i) as [c Hc].
    { simpl in Hlt. do 8 (destruct i as [|i]; [cbn in Hf; injection Hf as <-;
        first [exists 0%nat; eexists _, _; split_and!; (reflexivity || lia)
              |exists 1%nat; eexists _, _; split_and!; (reflexivity || lia)
              |exists 2%nat; eexists _, _; split_and!; (reflexivity || lia)]|]). lia. }
    pose proof (Hv _ _ _ Hc) as [Hx _]. rewrite Hi in Hx. injection Hx as ->. by eapply ring_positive. }
  { done. }
  exists ht, tr. split_and!; try done.
  assert (H0 : half ring 0 0 1) by (eexists _, _; split_and!; (reflexivity || lia)).
  assert (H1 : half ring 1 0 3) by (eexists _, _; split_and!; (reflexivity || lia)).
  rewrite (Hc 0%nat 0%nat 1%nat 1%nat 3%nat); [|split; done|done|done].
  destruct (Hv _ _ _ H0) as [-> _]. destruct (Hv _ _ _ H1) as [-> _]. cbn [default from_option]. unfold Datatypes.id.
  f_equal. assert (one_sided ring_ge ring_perm 0 0 = 1) as ->.
  { unfold one_sided, dist2, dist, Kn, coord; cbn -[IZR]; unfold Datatypes.id. rewrite Rabs_pos_eq by lra. lra. }
  assert (one_sided ring_ge ring_perm 1 0 = 1) as ->.
  { unfold one_sided, dist2, dist, Kn, coord; cbn -[IZR]; unfold Datatypes.id. rewrite Rabs_left by lra. lra. }
  unfold harmonic. lra.
Qed.

(** *** Positive definite permeability does not make the one-sided value
    positive: with K = [[2,1],[1,1]], the normal (1,0) and a face centroid at
    (1,-2) from the cell's, c·K·n is 0, and tpfa_trans_compute then divides by
    zero. *)
Theorem C43_positive_refuted : ∃ g ge perm ht,
  (∀ v1 v2, v1 ≠ 0 ∨ v2 ≠ 0 → 0 < v1 * (2 * v1 + v2) + v2 * (v1 + v2)) ∧
  perm = [2; 1; 1; 1] ∧ ge_d ge = 2%nat ∧
  htrans_compute g ge perm [7] = Some ht ∧ ht = [0] ∧ trans_compute g ht [7] = None.
Proof.
  exists (UGrid 1 1 [0; 1]%nat [0]%nat [0; -1]%Z), (UGeom 2 [1; -2] [1; 0] [0; 0]), [2; 1; 1; 1], [0].
  split_and!; try done.
  - intros v1 v2 Hv. assert (v1 * (2 * v1 + v2) + v2 * (v1 + v2) = v1 * v1 + (v1 + v2) * (v1 + v2)) as -> by ring.
    pose proof (Rle_0_sqr v1) as Q1. pose proof (Rle_0_sqr (v1 + v2)) as Q2. unfold Rsqr in Q1, Q2.
    destruct (Req_dec v1 0) as [->|Hn]; [|pose proof (Rsqr_pos_lt _ Hn) as Q3; unfold Rsqr in Q3; lra].
    destruct Hv as [Hv|Hv]; [done|]. pose proof (Rsqr_pos_lt _ Hv) as Q3. unfold Rsqr in Q3. lra.
  - unfold htrans_compute, csr_loop, for_loop, csr_step, htrans_body. cbn [mbind option_bind u_nc u_facepos lookup list_lookup fst snd Nat.sub for_loop ge_d].
    rewrite decide_True by lia. simpl. destruct (Rlt_dec _ _) as [Hx|Hx]; [|lra]. simpl.
    do 2 f_equal. unfold dgemv_row. simpl. unfold Datatypes.id.
    replace (_ + _ + _) with 0 by ring. unfold Rdiv. rewrite Rmult_0_l. apply Rabs_R0.
  - unfold trans_compute. simpl. unfold trans_body. simpl. unfold csr_loop. simpl. unfold csr_step. simpl. unfold trans_body. simpl. unfold rdiv. destruct (Req_EM_T 0 0); [done|lra].
Qed.
Print Assumptions C43_positive_refuted.
