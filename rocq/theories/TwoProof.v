(** Lemmas about the two-phase transport solver. *)
From Coq Require Import Reals Lra Psatz.
From stdpp Require Import relations.
From Verif Require Import Base CsrSpec CsrProof GridModel GridSpec ReorderModel ReorderProof ReorderProps
  TofModel TofSpec TofProof AccProof TableModel RootModel RootProps TwoModel TwoSpec.
Unset Default Proof Using.
Local Open Scope R_scope.

Ltac fa := repeat (first [apply Forall_nil_2|apply Forall_cons_2]); lra.

(** The number of iterations is not negative. *)
Lemma rf_loop_iters f m fuel eps epsF x0 x1 f0 f1 i0 res it hs es :
  rf_loop f m fuel eps epsF x0 x1 f0 f1 i0 = Some (res, it, hs, es) → (i0 ≤ it)%Z.
Proof.
  revert x0 x1 f0 f1 i0 res it hs es. induction fuel as [|fuel IH]; intros x0 x1 f0 f1 i0 res it hs es; [done|].
  cbn [rf_loop]. destruct (Rge_dec _ _); [|cbn; intros [= _ <- _ _]; lia].
  destruct (regula_falsi_step x0 x1 f0 f1) as [xn|]; [|done]. cbn [mbind option_bind].
  destruct (decide _); [cbn; intros [= _ <- _ _]; lia|].
  destruct (Rlt_dec _ _); [cbn; intros [= _ <- _ _]; lia|].
  destruct (bool_decide _); intros H; apply fmap_Some in H as ([[[r1 i1] h1] e1] & H & E1);
    apply fmap_Some in H as ([[[r2 i2] h2] e2] & H & E2); cbn in E1, E2; simplify_eq; apply IH in H; lia.
Qed.
Lemma guess_iters f m fuel g0 a b tol res it hs es :
  rf_solve_guess f m fuel g0 a b tol 0 = Some (res, it, hs, es) → (0 ≤ it)%Z.
Proof.
  assert (Hrest : ∀ eps epsF f0 f1 res it hs es,
    rf_guess_rest f m fuel eps epsF g0 (f g0) a b 0 f0 f1 = Some (res, it, hs, es) → (0 ≤ it)%Z).
  { intros eps epsF f0 f1 res' it' hs' es'. unfold rf_guess_rest.
    destruct (Rlt_dec _ _); (destruct (Rgt_dec _ _); [intros [= _ <- _ _]; lia|apply rf_loop_iters]). }
  unfold rf_solve_guess. intros H. apply fmap_Some in H as ([[[r1 i1] h1] e1] & H & E1). cbn in E1. simplify_eq.
  destruct (Rlt_dec _ _); [simplify_eq/=; lia|].
  assert (Hrest0 : ∀ eps epsF f0 res it hs es,
    (if Req_EM_T b g0 then rf_guess_rest f m fuel eps epsF g0 (f g0) a b 0 f0 (f g0)
     else add_eval b <$> (if Rlt_dec (Rabs (f b)) epsF then Some (Root b, 0%Z, [], []) else rf_guess_rest f m fuel eps epsF g0 (f g0) a b 0 f0 (f b)))
    = Some (res, it, hs, es) → (0 ≤ it)%Z).
  { intros eps epsF f0 res' it' hs' es' H'. destruct (Req_EM_T b g0); [by apply Hrest in H'|].
    apply fmap_Some in H' as ([[[r2 i2] h2] e2] & H' & E2). cbn in E2. simplify_eq.
    destruct (Rlt_dec (Rabs (f b)) epsF); [simplify_eq/=; lia|]. by apply Hrest in H'. }
  destruct (Req_EM_T a g0); [by apply Hrest0 in H|].
  apply fmap_Some in H as ([[[r2 i2] h2] e2] & H & E2). cbn in E2. simplify_eq.
  destruct (Rlt_dec _ _); [simplify_eq/=; lia|]. by apply Hrest0 in H.
Qed.

(** Each iteration but the last starts from an interval of its own. *)
Lemma rf_loop_heads f m fuel eps epsF x0 x1 f0 f1 i0 u v mm it hs es :
  rf_loop f m fuel eps epsF x0 x1 f0 f1 i0 = Some (TooManyIterations u v mm, it, hs, es) → Z.of_nat (length hs) = (it - i0)%Z.
Proof.
  revert x0 x1 f0 f1 i0 u v mm it hs es. induction fuel as [|fuel IH]; intros x0 x1 f0 f1 i0 u v mm it hs es; [done|].
  cbn [rf_loop]. destruct (Rge_dec _ _); [|cbn; by intros [=]].
  destruct (regula_falsi_step x0 x1 f0 f1) as [xn|]; [|done]. cbn [mbind option_bind].
  destruct (decide _); [cbn; intros [= _ _ _ <- <- _]; cbn; lia|].
  destruct (Rlt_dec _ _); [cbn; by intros [=]|].
  destruct (bool_decide _); intros H; apply fmap_Some in H as ([[[r1 i1] h1] e1] & H & E1);
    apply fmap_Some in H as ([[[r2 i2] h2] e2] & H & E2); cbn in E1, E2; simplify_eq; apply IH in H; cbn [length]; lia.
Qed.
Lemma guess_heads f m fuel g0 a b tol u v mm it hs es :
  rf_solve_guess f m fuel g0 a b tol 0 = Some (TooManyIterations u v mm, it, hs, es) → Z.of_nat (length hs) = it.
Proof.
  assert (Hrest : ∀ eps epsF f0 f1 u v mm it hs es,
    rf_guess_rest f m fuel eps epsF g0 (f g0) a b 0 f0 f1 = Some (TooManyIterations u v mm, it, hs, es) → Z.of_nat (length hs) = it).
  { intros eps epsF f0 f1 u' v' mm' it' hs' es'. unfold rf_guess_rest.
    destruct (Rlt_dec _ _); (destruct (Rgt_dec _ _); [by intros [=]|intros H; apply rf_loop_heads in H; lia]). }
  unfold rf_solve_guess. intros H. apply fmap_Some in H as ([[[r1 i1] h1] e1] & H & E1). cbn in E1. simplify_eq.
  destruct (Rlt_dec _ _); [simplify_eq/=; lia|].
  assert (Hrest0 : ∀ eps epsF f0 u v mm it hs es,
    (if Req_EM_T b g0 then rf_guess_rest f m fuel eps epsF g0 (f g0) a b 0 f0 (f g0)
     else add_eval b <$> (if Rlt_dec (Rabs (f b)) epsF then Some (Root b, 0%Z, [], []) else rf_guess_rest f m fuel eps epsF g0 (f g0) a b 0 f0 (f b)))
    = Some (TooManyIterations u v mm, it, hs, es) → Z.of_nat (length hs) = it).
  { intros eps epsF f0 u' v' mm' it' hs' es' H'. destruct (Req_EM_T b g0); [by apply Hrest in H'|].
    apply fmap_Some in H' as ([[[r2 i2] h2] e2] & H' & E2). cbn in E2. simplify_eq.
    destruct (Rlt_dec (Rabs (f b)) epsF); [simplify_eq/=; lia|]. by apply Hrest in H'. }
  destruct (Req_EM_T a g0); [by apply Hrest0 in H|].
  apply fmap_Some in H as ([[[r2 i2] h2] e2] & H & E2). cbn in E2. simplify_eq.
  destruct (Rlt_dec _ _); [simplify_eq/=; lia|]. by apply Hrest0 in H.
Qed.

Lemma enclosing_of f a b hs : a <= b → Forall (λ h, bracket f h ∧ hull (a, b) h.1 ∧ hull (a, b) h.2) hs →
  (∀ i h h', hs !! i = Some h → hs !! S i = Some h' → shrinks h h') → enclosing f a b hs.
Proof.
  intros Hab Hb Hs. split; [|exact Hs]. intros h Hh. rewrite Forall_forall in Hb. destruct (Hb h Hh) as (H1 & H2 & H3).
  unfold hull in H2, H3. cbn [fst snd] in H2, H3. rewrite Rmin_left, Rmax_right in H2, H3 by lra. done.
Qed.
Lemma settled_ext tol maxit r r' a b e s : (∀ y, r y = r' y) → settled tol maxit r a b e s → settled tol maxit r' a b e s.
Proof.
  intros E [H|(hs & u & v & [He1 He2] & Hl & H)]; [left; by rewrite <- !E|]. right. exists hs, u, v. split; [|done].
  split; [|done]. intros h Hh. rewrite <- !E. by apply He1.
Qed.
(** ** Roots of a function with f 0 <= 0 <= f 1 *)
Lemma weak_root (f : R → R) (g0 tol : R) (maxit : Z) :
  0 <= tol → f 0 <= 0 → 0 <= f 1 → 0 <= g0 <= 1 →
  ∃ res it hs es s, rf_solve_guess f maxit (Z.to_nat maxit + 1) g0 0 1 tol 0 = Some (res, it, hs, es) ∧
    continue_on_error res = Some s ∧ 0 <= s <= 1 ∧ Forall (λ y, 0 <= y <= 1) es ∧
    settled tol maxit f 0 1 g0 s.
Proof.
  intros Ht H0 H1 Hg.
  assert (Hh : ∀ y, hull (0, 1) y ↔ 0 <= y <= 1).
  { intros y. unfold hull. simpl. rewrite Rmin_left, Rmax_right by lra. done. }
  set (epsF := tol + macheps * Rmax (Rabs (f g0)) 1).
  assert (Hm : 0 < macheps). { unfold macheps. apply Rinv_0_lt_compat. apply pow_lt. lra. }
  assert (HeF : 0 < epsF) by (by apply eps_pos).
  destruct (Rlt_dec (f 0 * f 1) 0) as [Hs|Hs].
  - destruct (C32_solve_guess f g0 0 1 tol maxit 0 (Z.to_nat maxit + 1) Ht Hs) as (res & it & hs & es & E & He & Hb & Hsh & Hr & _).
    { by apply Hh. } { lia. }
    fold epsF in Hr.
    replace (Rmax (Rmax (Rabs 0) (Rabs 1)) 1) with 1 in Hr.
    2:{ rewrite Rabs_R0, Rabs_R1. rewrite (Rmax_right 0 1) by lra. by rewrite Rmax_left by lra. }
    pose proof (enclosing_of f 0 1 hs ltac:(lra) Hb Hsh) as Hen.
    assert (He' : Forall (λ y, 0 <= y <= 1) es). { eapply Forall_impl; [exact He|]. intros y Hy. by apply Hh. }
    destruct res as [x|? ? ? ?|u v m]; [|done|].
    + destruct Hr as [Hx Hr]. exists (Root x), it, hs, es, x. split_and!; try done; try (by apply Hh).
      destruct Hr as [Hr|(h & Hl & Hw & Hx' & _)]; [by left|]. right.
      exists hs, h.1, h.2. split; [done|]. split; [by rewrite Hl; destruct h|]. split; [done|]. left. unfold width in Hw. lra.
    + destruct Hr as (Hl & -> & Hit). assert (Hlen := guess_heads _ _ _ _ _ _ _ _ _ _ _ _ _ E).
      assert (Hin : (u, v) ∈ hs) by (apply last_Some in Hl as [hs' ->]; apply elem_of_app; right; by left).
      destruct (en_sign _ _ _ _ Hen _ Hin) as (_ & Hu & Hv). cbn [fst snd] in Hu, Hv.
      eexists _, it, hs, es, _. split; [exact E|]. split; [done|]. split; [lra|]. split; [done|].
      right. exists hs, u, v. split; [done|]. split; [done|]. split; [lra|]. right. lia.
  - assert (Hz : f 0 = 0 ∨ f 1 = 0) by (destruct (Req_dec (f 0) 0); [by left|right; nra]).
    unfold rf_solve_guess. fold epsF.
    destruct (Rlt_dec (Rabs (f g0)) epsF) as [Hi|Hi].
    { cbn [fmap option_fmap option_map add_eval]. eexists _, _, _, _, g0. split; [reflexivity|]. split; [done|].
      split; [done|]. split; [fa|]. by left. }
    assert (Hg0 : f g0 ≠ 0). { intros HH. apply Hi. by rewrite HH, Rabs_R0. }
    destruct (Req_EM_T 0 g0) as [<-|Hne0].
    + destruct Hz as [Hz|Hz]; [done|]. destruct (Req_EM_T 1 0) as [?|_]; [lra|].
      cbn [fmap option_fmap option_map].
      destruct (Rlt_dec (Rabs (f 1)) epsF) as [Hl|Hl]; [|exfalso; apply Hl; by rewrite Hz, Rabs_R0].
      cbn [fmap option_fmap option_map add_eval]. eexists _, _, _, _, 1. split; [reflexivity|]. split; [done|].
      split; [lra|]. split; [fa|]. by left.
    + destruct (Rlt_dec (Rabs (f 0)) epsF) as [Hl|Hl].
      { cbn [fmap option_fmap option_map add_eval]. eexists _, _, _, _, 0. split; [reflexivity|]. split; [done|].
        split; [lra|]. split; [fa|]. by left. }
      assert (f 1 = 0). { destruct Hz as [Hz|Hz]; [|done]. exfalso. apply Hl. by rewrite Hz, Rabs_R0. }
      destruct (Req_EM_T 1 g0) as [<-|Hne1]; [done|].
      destruct (Rlt_dec (Rabs (f 1)) epsF) as [Hl1|Hl1]; [|exfalso; apply Hl1; by rewrite H, Rabs_R0].
      cbn [fmap option_fmap option_map add_eval]. eexists _, _, _, _, 1. split; [reflexivity|]. split; [done|].
      split; [lra|]. split; [fa|]. by left.
Qed.

(** ** Fractional flow *)
Section fluid.
Context kr visc_w visc_o (HF : fluid_ok kr visc_w visc_o).
Notation F := (fraction kr visc_w visc_o).
Lemma frac_flow_fraction c s : frac_flow kr visc_w visc_o s c = F c s.
Proof. unfold frac_flow, mobility, fraction. by destruct (kr c s (1 - s)). Qed.
Lemma mob_bounds c s : 0 <= s <= 1 → 0 <= (kr c s (1 - s)).1 / visc_w ∧ 0 <= (kr c s (1 - s)).2 / visc_o ∧
  0 < (kr c s (1 - s)).1 / visc_w + (kr c s (1 - s)).2 / visc_o.
Proof using HF.
  intros Hs. destruct HF as [Hw Ho Hp _ _]. destruct (Hp c s Hs) as (H1 & H2 & H3). clear HF Hp.
  assert (0 < / visc_w) by (by apply Rinv_0_lt_compat). assert (0 < / visc_o) by (by apply Rinv_0_lt_compat).
  unfold Rdiv. split_and!; [nra|nra|].
  destruct (Rle_lt_or_eq_dec _ _ H1) as [H1'|H1']; [nra|]. rewrite <- H1' in *. nra.
Qed.
Lemma frac_defined_ok c s : 0 <= s <= 1 → frac_defined kr visc_w visc_o s c = true.
Proof using HF.
  intros Hs. pose proof (mob_bounds c s Hs) as (_ & _ & Hp). destruct HF as [Hw Ho _ _ _]. clear HF.
  unfold frac_defined, mobility. destruct (kr c s (1 - s)) as [kw ko]. simpl in Hp.
  destruct (Req_EM_T visc_w 0); [lra|]. destruct (Req_EM_T visc_o 0); [lra|]. destruct (Req_EM_T _ 0); [lra|done].
Qed.
Lemma fraction_bounds c s : 0 <= s <= 1 → 0 <= F c s <= 1.
Proof using HF.
  intros Hs. pose proof (mob_bounds c s Hs) as (H1 & H2 & H3). unfold fraction. clear HF.
  revert H1 H2 H3. generalize ((kr c s (1 - s)).1 / visc_w), ((kr c s (1 - s)).2 / visc_o). intros w o Hw Ho Hp.
  assert (0 < / (w + o)) by (by apply Rinv_0_lt_compat). split; [unfold Rdiv; nra|].
  replace 1 with ((w + o) / (w + o)) by (field; lra). unfold Rdiv. nra.
Qed.
Lemma fraction_0 c : F c 0 = 0.
Proof using HF. destruct HF as [_ _ _ H _]. unfold fraction. rewrite H. unfold Rdiv. ring. Qed.
Lemma fraction_1 c : F c 1 = 1.
Proof using HF.
  pose proof (mob_bounds c 1 ltac:(lra)) as (_ & _ & H3). destruct HF as [_ _ _ _ H]. unfold fraction.
  rewrite H in *. replace (0 / visc_o) with 0 in * by (unfold Rdiv; ring). rewrite Rplus_0_r in *.
  unfold Rdiv at 1. apply Rinv_r. clear - H3. lra.
Qed.
End fluid.

Section two.
Context (g : ugrid) (cf : list (list nat)) (flux pv src : list R) (dt : R).
Context (kr : nat → R → R → R * R) (visc_w visc_o tol : R) (maxit : Z).
Context (Hg : grid_ok g cf) (Hflux : length flux = u_nf g).
Notation flows := (flows r_pos r_neg g flux).
Notation out := (out g flux).
Notation cellval := (R * R * Z)%type.
Notation F := (fraction kr visc_w visc_o).

(** The stored fractional flow of cell [u]. *)
Definition ffv (x : list cellval) (u : nat) : R := default 0 ((λ v : cellval, v.1.2) <$> x !! u).

Lemma inner_facts c r f : cf !! c = Some r → f ∈ r →
  ∃ a b d, u_facecells g !! (2 * f)%nat = Some a ∧ u_facecells g !! (2 * f + 1)%nat = Some b ∧ flux !! f = Some d ∧
    (if decide (Z.of_nat c = a) then d else - d) = out c f ∧
    let other := if decide (Z.of_nat c = a) then b else a in
    (inner g f = true ↔ other ≠ (-1)%Z) ∧
    (inner g f = true → (0 ≤ other < Z.of_nat (u_nc g))%Z) ∧
    (inner g f = true → out c f < 0 → upstream g flux f = other ∧ flows (Z.to_nat other) c) ∧
    (0 < out c f → upstream g flux f = Z.of_nat c).
Proof using Hg Hflux.
  intros Hr Hf. destruct (face_facts g cf flux Hg Hflux c r f Hr Hf) as (a & b & d & Ea & Eb & Ed & Eo & Hup & Hpos & Hrg & Hfl & _).
  exists a, b, d. do 4 (split; [done|]). cbv zeta.
  assert (Hab : face_between g f a b) by done.
  pose proof (ok_range _ _ Hg f a b Hab) as (Ha & Hb & Hne).
  assert (Hin : inner g f = true ↔ (if decide (Z.of_nat c = a) then b else a) ≠ (-1)%Z).
  { unfold inner. rewrite Ea, Eb, bool_decide_eq_true.
    apply (ok_inc _ _ Hg _ _ _ Hr) in Hf as (a' & b' & [Ea' Eb'] & Hi). rewrite Ea in Ea'. rewrite Eb in Eb'. simplify_eq.
    destruct (decide (Z.of_nat c = a')); lia. }
  split; [done|]. split.
  { intros Hi. apply Hin in Hi. destruct (decide _); lia. }
  split; [|done]. intros Hi Ho. apply Hin in Hi. rewrite <- (Hup Ho) in *. split; [done|]. by apply Hfl.
Qed.

Definition infl_part (x : list cellval) (c f : nat) : R :=
  if inner g f then if Rlt_dec (out c f) 0 then out c f * carried g flux (ffv x) f else 0 else 0.
Definition outfl_part (c f : nat) : R :=
  if inner g f then if Rlt_dec (out c f) 0 then 0 else out c f else 0.

Lemma triple3 (a a' b b' c c' : R) : a = a' → b = b' → c = c' → Some (a, b, c) = Some (a', b', c').
Proof. by intros -> -> ->. Qed.

Lemma residual_loop_ok c r b x k i o ct :
  cf !! c = Some r → (∀ k, (k < length r)%nat → u_cellfaces g !! (b + k)%nat = r !! k) →
  length x = u_nc g → (k ≤ length r)%nat →
  residual_loop g flux c (seq (b + k) (length r - k)) i o ct x =
    Some (i + rsum (infl_part x c) (drop k r), o + rsum (outfl_part c) (drop k r), ct - inner_sum g (out c) (drop k r)).
Proof using Hg Hflux.
  intros Hr Hread Hx. remember (length r - k)%nat as n eqn:Hn. revert k i o ct Hn.
  induction n as [|n IH]; intros k i o ct Hn Hk; cbn [seq residual_loop].
  - rewrite drop_ge by lia. unfold inner_sum. simpl. apply triple3; lra.
  - rewrite Hread by lia. destruct (lookup_lt_is_Some_2 r k) as [f Hf]; [lia|]. rewrite Hf. cbn [mbind option_bind].
    destruct (inner_facts c r f Hr) as (a & e & d & Ea & Ee & Ed & Eo & Hin & Hrg & Hup & _); [by eapply elem_of_list_lookup_2|].
    rewrite Ea, Ee, Ed. cbn [mbind option_bind]. rewrite Eo. rewrite (drop_S _ _ _ Hf). unfold inner_sum. cbn [rsum].
    replace (S (b + k)) with (b + S k)%nat by lia.
    set (other := if decide (Z.of_nat c = a) then e else a) in *.
    unfold infl_part at 1, outfl_part at 1.
    destruct (decide (other = (-1)%Z)) as [Ho|Ho].
    + assert (inner g f = false) as ->. { destruct (inner g f); [|done]. by apply Hin in Ho. }
      rewrite IH by lia. unfold inner_sum. apply triple3; lra.
    + assert (Hi : inner g f = true) by (by apply Hin). rewrite Hi.
      destruct (Rlt_dec (out c f) 0) as [Hneg|Hneg].
      * destruct (lookup_lt_is_Some_2 x (Z.to_nat other)) as [[[s ff] it] Hrow]; [specialize (Hrg Hi); lia|].
        rewrite Hrow. cbn [mbind option_bind]. rewrite IH by lia. unfold inner_sum.
        destruct (Hup Hi Hneg) as [Hu _]. unfold carried. rewrite Hu, decide_False by done.
        assert (ffv x (Z.to_nat other) = ff) as -> by (unfold ffv; by rewrite Hrow). apply triple3; lra.
      * rewrite IH by lia. unfold inner_sum. apply triple3; lra.
Qed.

(** The residual of the code is the imbalance. *)
Lemma make_residual_ok c r x s0 ff it q p :
  cf !! c = Some r → length x = u_nc g → x !! c = Some (s0, ff, it) → src !! c = Some q → pv !! c = Some p → p ≠ 0 →
  ∃ rs, make_residual g flux pv src dt c x = Some rs ∧
    ∀ s, residual_at kr visc_w visc_o rs s = imbalance g flux dt p q r c (ffv x) (F c) s0 s.
Proof using Hg Hflux.
  intros Hr Hx Hc Hq Hp Hp0. unfold make_residual. rewrite Hc, Hq, Hp. cbn [mbind option_bind].
  unfold rdiv. destruct (Req_EM_T p 0) as [?|_]; [done|]. cbn [mbind option_bind].
  destruct (cell_js g cf flux Hg Hflux c r Hr) as (b & e & Hb & He & Hlen & Hread). rewrite Hb, He. cbn [mbind option_bind].
  rewrite Hlen. pose proof (residual_loop_ok c r b x 0) as L.
  rewrite Nat.add_0_r, Nat.sub_0_r, drop_0 in L. rewrite L by (done || lia). cbn [mbind option_bind].
  eexists. split; [done|]. intros s. unfold residual_at. simpl. rewrite frac_flow_fraction. unfold imbalance, gain.
  assert (Hsum : inner_sum g (λ f, if Rlt_dec (out c f) 0 then out c f * carried g flux (ffv x) f else out c f * F c s) r
    = rsum (infl_part x c) r + F c s * rsum (outfl_part c) r).
  { unfold inner_sum. rewrite <- rsum_scale, <- rsum_plus. apply rsum_ext. intros f _. unfold infl_part, outfl_part.
    destruct (inner g f); [|lra]. destruct (Rlt_dec (out c f) 0); lra. }
  rewrite Hsum. destruct (Rlt_dec (- q) 0).
  - rewrite (Rmax_right (- q)), (Rmax_left q) by lra. f_equal. f_equal. ring.
  - rewrite (Rmax_left (- q)), (Rmax_right q) by lra. f_equal. f_equal. ring.
Qed.

(** Both ends of the unit interval have the right sign. *)
Lemma imbalance_ends c r q p val s0 :
  cf !! c = Some r → fluid_ok kr visc_w visc_o → 0 <= dt → 0 < p → 0 <= s0 <= 1 →
  (∀ u, flows u c → 0 <= val u <= 1) →
  imbalance g flux dt p q r c val (F c) s0 0 <= 0 ∧ 0 <= imbalance g flux dt p q r c val (F c) s0 1.
Proof using Hg Hflux.
  intros Hr HF Hdt Hp Hs0 Hval. unfold imbalance. rewrite (fraction_0 _ _ _ HF), (fraction_1 _ _ _ HF).
  assert (Hdp : 0 <= dt / p). { unfold Rdiv. assert (0 < / p) by (by apply Rinv_0_lt_compat). clear - Hdt H. nra. }
  assert (Hcar : ∀ f, f ∈ r → inner g f = true → out c f < 0 → 0 <= carried g flux val f <= 1).
  { intros f Hf Hi Ho. destruct (inner_facts c r f Hr Hf) as (a & e & d & _ & _ & _ & _ & Hin & Hrg & Hup & _).
    destruct (Hup Hi Ho) as [Hu Hfl]. unfold carried. rewrite Hu. apply Hin in Hi. rewrite decide_False by done. auto. }
  clear HF Hg Hflux. split.
  - assert (A : 0 <= - inner_sum g (λ f, if Rlt_dec (out c f) 0 then out c f * carried g flux val f else out c f * 0) r).
    { unfold inner_sum. rewrite <- rsum_opp. apply rsum_nonneg. intros f Hf. specialize (Hcar f Hf).
      destruct (inner g f); [|lra]. destruct (Rlt_dec (out c f) 0) as [Ho|Ho]; [|lra]. specialize (Hcar eq_refl Ho). nra. }
    pose proof (Rmax_r q 0). clear - A H Hdp Hs0. nra.
  - unfold gain.
    assert (A : 0 <= inner_sum g (λ f, if Rlt_dec (out c f) 0 then out c f * carried g flux val f else out c f * 1) r - inner_sum g (out c) r).
    { unfold inner_sum. unfold Rminus. rewrite <- rsum_opp, <- rsum_plus. apply rsum_nonneg. intros f Hf. specialize (Hcar f Hf).
      destruct (inner g f); [|lra]. destruct (Rlt_dec (out c f) 0) as [Ho|Ho]; [|lra]. specialize (Hcar eq_refl Ho). nra. }
    assert (B : Rmax (- q) 0 * 1 - Rmax q 0 + q = 0) by (unfold Rmax; repeat destruct (Rle_dec _ _); lra).
    clear - A B Hdp Hs0. nra.
Qed.

Lemma two_cell_ok c r x s0 ff it q p :
  cf !! c = Some r → length x = u_nc g → x !! c = Some (s0, ff, it) → src !! c = Some q → pv !! c = Some p →
  fluid_ok kr visc_w visc_o → 0 <= dt → 0 <= tol → 0 < p → 0 <= s0 <= 1 →
  (∀ u, flows u c → 0 <= ffv x u <= 1) →
  ∃ s n, two_cell g flux pv src dt kr visc_w visc_o tol maxit c x = Some (s, F c s, (it + n)%Z) ∧ 0 <= s <= 1 ∧ (0 ≤ n)%Z ∧
    settled tol maxit (imbalance g flux dt p q r c (ffv x) (F c) s0) 0 1 s0 s.
Proof using Hg Hflux.
  intros Hr Hx Hc Hq Hp HF Hdt Ht Hp0 Hs0 Hval. unfold two_cell.
  destruct (make_residual_ok c r x s0 ff it q p Hr Hx Hc Hq Hp) as (rs & E & Heq); [clear - Hp0; lra|].
  rewrite E. cbn [mbind option_bind]. rewrite Hc. cbn [mbind option_bind].
  destruct (imbalance_ends c r q p (ffv x) s0 Hr HF Hdt Hp0 Hs0 Hval) as [H0 H1].
  destruct (weak_root (residual_at kr visc_w visc_o rs) s0 tol maxit Ht) as (res & n & hs & es & s & Er & Es & Hs & Hes & Hset).
  { by rewrite Heq. } { by rewrite Heq. } { done. }
  rewrite Er. cbn [mbind option_bind]. rewrite Es. cbn [mbind option_bind].
  assert (forallb (λ y, frac_defined kr visc_w visc_o y c) (s :: es) = true) as ->.
  { apply forallb_forall. intros y Hy. apply frac_defined_ok; [done|]. destruct Hy as [<-|Hy]; [done|].
    rewrite Forall_forall in Hes. apply Hes. by apply elem_of_list_In. }
  exists s, n. rewrite frac_flow_fraction. split; [done|]. split; [done|]. split; [by eapply guess_iters|].
  eapply settled_ext; [|exact Hset]. intros y. apply Heq.
Qed.
End two.
