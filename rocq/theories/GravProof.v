(** Lemmas about gravity segregation. *)
From Coq Require Import Reals Lra Psatz.
From Verif Require Import Base CsrSpec CsrProof GridModel GridSpec LoopModel LoopProof TofSpec TableModel RootModel RootProps
  AccProof TwoModel TwoSpec TwoProof GravModel GravSpec.
Unset Default Proof Using.
Local Open Scope R_scope.

(** ** Roots in any interval *)
Lemma solve_iters_heads f m fuel a b tol u v mm it hs es :
  rf_solve f m fuel a b tol 0 = Some (TooManyIterations u v mm, it, hs, es) → Z.of_nat (length hs) = it.
Proof.
  unfold rf_solve. intros H. apply fmap_Some in H as ([[[r1 i1] h1] e1] & H & E1). cbn in E1. simplify_eq.
  destruct (Rlt_dec _ _); [done|]. apply fmap_Some in H as ([[[r2 i2] h2] e2] & H & E2). cbn in E2. simplify_eq.
  destruct (Rlt_dec _ _); [done|]. destruct (Rgt_dec _ _); [done|]. apply rf_loop_heads in H. lia.
Qed.
Lemma weak_solve (f : R → R) (a b tol : R) (maxit : Z) :
  0 <= tol → 0 <= a <= b → b <= 1 → f a <= 0 → 0 <= f b →
  ∃ res it hs es s, rf_solve f maxit (Z.to_nat maxit + 1) a b tol 0 = Some (res, it, hs, es) ∧
    continue_on_error res = Some s ∧ a <= s <= b ∧ settled tol maxit f a b a s.
Proof.
  intros Ht Hab Hb1 H0 H1.
  destruct (Rlt_dec (f a * f b) 0) as [Hs|Hs].
  - destruct (C32_solve f a b tol maxit 0 (Z.to_nat maxit + 1) Ht Hs ltac:(lia)) as ([[[res it] hs] es] & E & G).
    destruct G as [G1 G2 G3 G4 G5]. cbn [fst snd] in *.
    assert (Eps : Rmax (Rmax (Rabs a) (Rabs b)) 1 = 1).
    { rewrite !Rabs_right by lra. apply Rmax_right. apply Rmax_lub; lra. }
    rewrite Eps in G4.
    pose proof (enclosing_of f a b hs ltac:(lra) G2 G3) as Hen.
    destruct res as [x|? ? ? ?|u v m]; [|done|].
    + destruct G4 as [Hx Hr]. unfold hull in Hx. cbn [fst snd] in Hx. rewrite Rmin_left, Rmax_right in Hx by lra.
      exists (Root x), it, hs, es, x. split; [done|]. split; [done|]. split; [done|].
      destruct Hr as [Hr|(h & Hl & Hw & Hx' & _)]; [by left|]. right.
      exists hs, h.1, h.2. split; [done|]. split; [by rewrite Hl; destruct h|]. split; [done|]. left. unfold width in Hw. lra.
    + destruct G4 as (Hl & -> & Hit). assert (Hlen := solve_iters_heads _ _ _ _ _ _ _ _ _ _ _ _ E).
      assert (Hin : (u, v) ∈ hs) by (apply last_Some in Hl as [hs' ->]; apply elem_of_app; right; by left).
      destruct (en_sign _ _ _ _ Hen _ Hin) as (_ & Hu & Hv). cbn [fst snd] in Hu, Hv.
      eexists _, it, hs, es, _. split; [exact E|]. split; [done|]. split; [lra|].
      right. exists hs, u, v. split; [done|]. split; [done|]. split; [lra|]. right. lia.
  - assert (Hz : f a = 0 ∨ f b = 0) by (destruct (Req_dec (f a) 0); [by left|right; nra]).
    unfold rf_solve. set (epsF := tol + macheps * Rmax (Rabs (f a)) 1). assert (0 < epsF) as He by (by apply eps_pos).
    destruct (Rlt_dec (Rabs (f a)) epsF) as [Hi|Hi].
    { cbn [fmap option_fmap option_map add_eval]. eexists _, _, _, _, a. split; [reflexivity|]. split; [done|]. split; [lra|]. by left. }
    destruct Hz as [Hz|Hz]; [exfalso; apply Hi; by rewrite Hz, Rabs_R0|].
    destruct (Rlt_dec (Rabs (f b)) epsF) as [Hj|Hj]; [|exfalso; apply Hj; by rewrite Hz, Rabs_R0].
    cbn [fmap option_fmap option_map add_eval]. eexists _, _, _, _, b. split; [reflexivity|]. split; [done|]. split; [lra|]. by left.
Qed.

(** ** Interfaces *)
Lemma blend_nonneg a b : 0 <= a → 0 <= b → 0 <= blend a b.
Proof. intros. unfold blend. destruct (Rlt_dec _ _); [|lra]. unfold Rdiv. assert (0 < / (a + b)) by (by apply Rinv_0_lt_compat).
  assert (0 <= a * b) by nra. nra. Qed.
Lemma blend_0_l b : blend 0 b = 0.
Proof. unfold blend. destruct (Rlt_dec _ _); [|lra]. unfold Rdiv. rewrite Rmult_0_l. lra. Qed.
Lemma blend_0_r a : blend a 0 = 0.
Proof. unfold blend. destruct (Rlt_dec _ _); [|lra]. unfold Rdiv. rewrite Rmult_0_r. lra. Qed.
Lemma segregate_anti G m1 m2 : segregate (- G) m2 m1 = - segregate G m1 m2.
Proof.
  unfold segregate. destruct (Rlt_dec (- G) 0), (Rlt_dec G 0); try lra. replace G with 0 by lra. lra.
Qed.
Lemma segregate_dry G m1 m2 : m1.1 = 0 → 0 <= m1.2 → 0 <= m2.1 → 0 <= segregate G m1 m2.
Proof.
  intros E H1 H2. unfold segregate. destruct (Rlt_dec G 0). { rewrite E, blend_0_l. lra. }
  pose proof (blend_nonneg _ _ H2 H1). nra.
Qed.
Lemma segregate_full G m1 m2 : m1.2 = 0 → 0 <= m1.1 → 0 <= m2.2 → segregate G m1 m2 <= 0.
Proof.
  intros E H1 H2. unfold segregate. destruct (Rlt_dec G 0). 2:{ rewrite E, blend_0_r. lra. }
  pose proof (blend_nonneg _ _ H1 H2). nra.
Qed.
Lemma grav_term_eq dtp m nb : grav_term dtp m nb = - (dtp * segregate nb.1 m nb.2).
Proof.
  destruct nb as [gf mnb]. unfold grav_term, segregate, blend. cbn [fst snd].
  destruct (Rlt_dec gf 0); destruct (Rlt_dec 0 _); unfold Rdiv; lra.
Qed.

(** ** Fluxes of a column *)
Section fluxes.
Context (g : ugrid) (cf : list (list nat)) (gravflux : list R) (Hg : grid_ok g cf) (Hgf : length gravflux = u_nf g).
Definition touches (f next : nat) : Prop :=
  ∃ c1 c2, u_facecells g !! (2 * f)%nat = Some c1 ∧ u_facecells g !! (2 * f + 1)%nat = Some c2 ∧ (c1 = Z.of_nat next ∨ c2 = Z.of_nat next).
Lemma col_face_ok cell next fs : (∀ f, f ∈ fs → (f < u_nf g)%nat) → ∀ js v, 
  Forall2 (λ j f, u_cellfaces g !! j = Some f) js fs →
  ∃ w, col_face g gravflux cell next js v = Some w ∧
    ((∀ f, f ∈ fs → ¬ touches f next) → w = v) ∧
    (∀ f, f ∈ fs → touches f next → (∀ f', f' ∈ fs → touches f' next → f' = f) →
       ∀ c1 gf, u_facecells g !! (2 * f)%nat = Some c1 → gravflux !! f = Some gf → w = if decide (c1 = Z.of_nat cell) then gf else - gf).
Proof using Hg Hgf.
  induction fs as [|f fs IH]; intros Hlt js v HF; inversion HF as [|j f' js' fs' Hj HF' ]; subst.
  { exists v. split; [done|]. split; [done|]. intros f Hf. by apply elem_of_nil in Hf. }
  assert (Hf : (f < u_nf g)%nat) by (apply Hlt; by left).
  destruct (lookup_lt_is_Some_2 (u_facecells g) (2 * f)%nat) as [c1 E1]; [rewrite (ok_faces _ _ Hg); lia|].
  destruct (lookup_lt_is_Some_2 (u_facecells g) (2 * f + 1)%nat) as [c2 E2]; [rewrite (ok_faces _ _ Hg); lia|].
  destruct (lookup_lt_is_Some_2 gravflux f) as [gf Egf]; [by rewrite Hgf|].
  cbn [col_face]. rewrite Hj. cbn [mbind option_bind]. rewrite E1, E2. cbn [mbind option_bind].
  destruct (decide (c1 = Z.of_nat next ∨ c2 = Z.of_nat next)) as [Ht|Ht].
  - rewrite Egf. cbn [mbind option_bind].
    destruct (IH ltac:(intros; apply Hlt; by right) js' (if decide (c1 = Z.of_nat cell) then gf else - gf) HF') as (w & E & Hw1 & Hw2).
    assert (Htf : touches f next) by (by exists c1, c2).
    exists w. split; [done|]. split. { intros H. exfalso. by apply (H f); [left|]. }
    intros f' Hf' Ht' Hu c1' gf' Ec1 Egf'.
    assert (f = f') as <- by (apply Hu; [by left|done]). simplify_eq.
    destruct (decide (f ∈ fs)) as [Hin|Hin].
    + apply (Hw2 f Hin Ht'); [|done|done]. intros f' H1 H2. apply Hu; [by right|done].
    + apply Hw1. intros f' Hf1 Hf2. apply Hin. by rewrite <- (Hu f' ltac:(by right) Hf2).
  - destruct (IH ltac:(intros; apply Hlt; by right) js' v HF') as (w & E & Hw1 & Hw2).
    exists w. split; [done|]. split.
    + intros H. apply Hw1. intros f' Hf'. apply H. by right.
    + intros f' Hf' Ht' Hu. apply elem_of_cons in Hf' as [->|Hf'].
      { exfalso. apply Ht. destruct Ht' as (a & b & Ha & Hb & H). by simplify_eq. }
      apply (Hw2 f' Hf' Ht'). intros f2 H1 H2. apply Hu; [by right|done].
Qed.
Lemma col_fluxes_ok cells : (∀ c, c ∈ cells → (c < u_nc g)%nat) →
  ∃ G, col_fluxes g gravflux cells = Some G ∧ length G = (length cells - 1)%nat ∧
    ∀ i a b r f c1 gf, cells !! i = Some a → cells !! S i = Some b → cf !! a = Some r → f ∈ r → touches f b →
      (∀ f', f' ∈ r → touches f' b → f' = f) → u_facecells g !! (2 * f)%nat = Some c1 → gravflux !! f = Some gf →
      G !! i = Some (if decide (c1 = Z.of_nat a) then gf else - gf).
Proof using Hg Hgf.
  induction cells as [|a l IH]; intros HC; [by exists []|]. destruct l as [|b l].
  { exists []. split; [done|]. split; [done|]. by intros [|i]. }
  destruct IH as (G & EG & Hl & HG). { intros c Hc. apply HC. by right. }
  assert (Ha : (a < u_nc g)%nat) by (apply HC; by left).
  destruct (lookup_lt_is_Some_2 cf a) as [r Hr]; [by rewrite (ok_cells _ _ Hg)|].
  destruct (proj2 (proj2 (proj2 (ok_rows _ _ Hg))) a r Hr) as (k & e & Hk & Hk' & Hke & Hsl).
  pose proof (slice_length _ _ _ _ Hsl) as Hlr.
  change (col_fluxes g gravflux (a :: b :: l)) with
    (b0 ← u_facepos g !! a; e ← u_facepos g !! S a; v ← col_face g gravflux a b (seq b0 (e - b0)) 0;
     vs ← col_fluxes g gravflux (b :: l); Some (v :: vs)).
  rewrite Hk, Hk'. cbn [mbind option_bind]. rewrite <- Hlr.
  destruct (col_face_ok a b r) with (js := seq k (length r)) (v := 0) as (w & Ew & _ & Hw).
  { intros f Hf. apply (ok_inc _ _ Hg a r f Hr) in Hf as (c1 & c2 & [H1 H2] & _). apply lookup_lt_Some in H2. rewrite (ok_faces _ _ Hg) in H2. lia. }
  { apply Forall2_same_length_lookup_2; [by rewrite seq_length|]. intros i j f Hj Hf. apply lookup_seq in Hj as [-> Hi].
    rewrite (slice_lookup _ _ _ _ _ Hsl); [done|lia]. }
  rewrite Ew. cbn [mbind option_bind]. rewrite EG. cbn [mbind option_bind]. exists (w :: G). split; [done|].
  split; [simpl in *; lia|]. intros [|i] a' b' r' f c1 gf Hi Hb' Hr' Hf Ht Hu Hc1 Hgf'.
  - simpl in Hi, Hb'. simplify_eq. simpl. f_equal. by apply (Hw f).
  - simpl. by eapply HG.
Qed.
End fluxes.
