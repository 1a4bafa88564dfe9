(** End-point scaling: one curve. *)
From Coq Require Import Reals Lra Psatz.
From Verif Require Import Base LoopModel TableModel TofSpec MiscSpec PhaseModel UTableProof KrModel KrSpec KrProof KrProps EpsModel EpsSpec.
Local Open Scope R_scope.
Unset Default Proof Using.

Lemma or_default_eff arr cell d : has arr cell → or_default arr cell d = Some (eff arr cell d).
Proof. intros [->|H]; [done|]. unfold or_default, eff, val. destruct arr as [|a arr]; [done|]. destruct (lookup_lt_is_Some_2 _ _ H) as [v Hv]. by rewrite Hv. Qed.
Lemma onto_Some x0 x1 y0 y1 x : x0 < x1 → onto x0 x1 y0 y1 x = Some (y0 + (x - x0) * (y1 - y0) / (x1 - x0)).
Proof. intros H. unfold onto. rewrite rdiv_Some by lra. done. Qed.
(** Points of a line. *)
Lemma line_mono x0 x1 y0 y1 x z : x0 < x1 → y0 <= y1 → x <= z → y0 + (x - x0) * (y1 - y0) / (x1 - x0) <= y0 + (z - x0) * (y1 - y0) / (x1 - x0).
Proof. intros. apply Rplus_le_compat_l. apply Rmult_le_compat_r; [left; apply Rinv_0_lt_compat; lra|]. apply Rmult_le_compat_r; lra. Qed.
Lemma line_end x0 x1 y0 y1 : x0 < x1 → y0 + (x1 - x0) * (y1 - y0) / (x1 - x0) = y1.
Proof. intros. field. lra. Qed.
Lemma line_start x0 x1 y0 y1 : y0 + (x0 - x0) * (y1 - y0) / (x1 - x0) = y0.
Proof. replace (x0 - x0) with 0 by lra. unfold Rdiv. lra. Qed.
Lemma line_between x0 x1 y0 y1 x : x0 < x1 → y0 <= y1 → x0 <= x <= x1 → y0 <= y0 + (x - x0) * (y1 - y0) / (x1 - x0) <= y1.
Proof. intros H1 H2 H3. split; [eapply Rle_trans; [right; symmetry; apply (line_start x0 x1 y0 y1)|]|eapply Rle_trans; [|right; apply (line_end x0 x1 y0 y1 H1)]]; apply line_mono; lra. Qed.

Section scale.
Context (three : bool) (cr r mx : list R) (t : points) (cell : nat) (lo : R).
Context (Hcr : has cr cell) (Hr : has r cell) (Hmx : has mx cell).
Notation q_cr := (eff cr cell (p_cr t)).
Notation q_mx := (eff mx cell (p_mx t)).
Notation q_r := (middle three cr r mx t cell).
Context (Ht : lo <= p_cr t ∧ p_cr t < p_r t <= p_mx t).
Context (Hq : q_cr < q_r ∧ q_r <= q_mx ∧ (q_r < q_mx ∨ p_r t = p_mx t)).
Context (H3 : three = true → cr = [] → mx = [] → r = []).
(** The transform of saturations takes the points to those of the table. *)
Record transform (T : R → R) : Prop := {
  tr_in : ∀ x, (allowed cr mx lo (p_mx t)) x → between lo (p_mx t) (T x);
  tr_mono : ∀ x z, (allowed cr mx lo (p_mx t)) x → (allowed cr mx lo (p_mx t)) z → x <= z → T x <= T z;
  tr_cr : ∀ x, (allowed cr mx lo (p_mx t)) x → x <= q_cr → T x <= p_cr t;
  tr_r : (allowed cr mx lo (p_mx t)) q_r ∧ T q_r = p_r t;
  tr_mx : ∀ x, (allowed cr mx lo (p_mx t)) x → q_mx <= x → T x = p_mx t }.
Lemma scale_sat_ok : ∃ T, transform T ∧ ∀ x, (allowed cr mx lo (p_mx t)) x → scale_sat three cr r mx (p_cr t) (p_r t) (p_mx t) cell x = Some (T x).
Proof using Hcr Hmx Hr Hq H3 Ht.
  destruct Ht as [Hlo Htt]. destruct Hq as (Q1 & Q2 & Q3).
  destruct (match cr, mx with [], [] => true | _, _ => false end) eqn:EB.
  - assert (cr = []) as Ecr by (by destruct cr, mx). assert (mx = []) as Emx by (by destruct cr, mx).
    assert (EA : (allowed cr mx lo (p_mx t)) = between lo (p_mx t)) by (unfold allowed; by rewrite Ecr, Emx).
    assert (Er : q_r = p_r t). { unfold middle, eff in *. destruct three; [rewrite (H3 eq_refl Ecr Emx); done|]. rewrite Ecr, Emx. field. lra. }
    exists (λ x, x). split; [|intros x _; unfold scale_sat; by rewrite Ecr, Emx]. split; rewrite ?EA; unfold between.
    + done.
    + done.
    + rewrite Ecr. done.
    + rewrite Er. split; [lra|done].
    + rewrite Emx. cbn. intros; lra.
  - assert (EA : ∀ x, (allowed cr mx lo (p_mx t)) x) by (intros x; unfold allowed; by destruct cr, mx).
    set (T := λ x, if three then
        if Rle_dec x q_r then if Rle_dec x q_cr then p_cr t else p_cr t + (x - q_cr) * (p_r t - p_cr t) / (q_r - q_cr)
        else if Rge_dec x q_mx then p_mx t else p_r t + (x - q_r) * (p_mx t - p_r t) / (q_mx - q_r)
      else if Rle_dec x q_cr then p_cr t else if Rge_dec x q_mx then p_mx t else p_cr t + (x - q_cr) * (p_mx t - p_cr t) / (q_mx - q_cr)).
    exists T. split.
    2:{ intros x _. unfold scale_sat, T. rewrite EB. rewrite !or_default_eff by done. cbn [mbind option_bind]. unfold middle in *. destruct three.
        - destruct (Rle_dec x _); [destruct (Rle_dec x _); [done|apply onto_Some; lra]|]. destruct (Rge_dec x _); [done|]. apply onto_Some. lra.
        - destruct (Rle_dec x _); [done|]. destruct (Rge_dec x _); [done|]. apply onto_Some. lra. }
    assert (TM : ∀ x z, x <= z → T x <= T z).
    { intros x z Hxz. unfold T. unfold middle in *. destruct three.
      - set (a := q_cr) in *. set (b := eff r cell (p_r t)) in *. set (c := q_mx) in *. clearbody a b c.
        destruct (Rle_dec x b); [destruct (Rle_dec x a)|destruct (Rge_dec x c)]; (destruct (Rle_dec z b); [destruct (Rle_dec z a)|destruct (Rge_dec z c)]); try lra;
          repeat match goal with
          | |- context [p_cr t + (?y - a) * (p_r t - p_cr t) / (b - a)] => lazymatch goal with H : p_cr t <= p_cr t + (y - a) * (p_r t - p_cr t) / (b - a) <= p_r t |- _ => fail | _ => pose proof (line_between a b (p_cr t) (p_r t) y ltac:(lra) ltac:(lra) ltac:(lra)) end
          | |- context [p_r t + (?y - b) * (p_mx t - p_r t) / (c - b)] => lazymatch goal with H : p_r t <= p_r t + (y - b) * (p_mx t - p_r t) / (c - b) <= p_mx t |- _ => fail | _ => pose proof (line_between b c (p_r t) (p_mx t) y ltac:(lra) ltac:(lra) ltac:(lra)) end
          end; try lra; apply line_mono; lra.
      - assert (q_cr < q_mx) as Hcm by lra. set (a := q_cr) in *. set (c := q_mx) in *. clearbody a c. clear Q1 Q2 Q3.
        destruct (Rle_dec x a); [|destruct (Rge_dec x c)]; (destruct (Rle_dec z a); [|destruct (Rge_dec z c)]); try lra;
          repeat match goal with
          | |- context [p_cr t + (?y - a) * (p_mx t - p_cr t) / (c - a)] => lazymatch goal with H : p_cr t <= p_cr t + (y - a) * (p_mx t - p_cr t) / (c - a) <= p_mx t |- _ => fail | _ => pose proof (line_between a c (p_cr t) (p_mx t) y ltac:(lra) ltac:(lra) ltac:(lra)) end
          end; try lra; apply line_mono; lra. }
    assert (TC : ∀ x, x <= q_cr → T x = p_cr t).
    { intros x Hx. unfold T. unfold middle in *. destruct three; destruct (Rle_dec x _); try lra; try done. destruct (Rle_dec x _); [done|lra]. }
    assert (TX : ∀ x, q_mx <= x → T x = p_mx t).
    { intros x Hx. unfold T. unfold middle in *. destruct three.
      - destruct (Rle_dec x _) as [Hle|]; [|destruct (Rge_dec x _); [done|lra]]. destruct Q3 as [?|Q3]; [lra|]. destruct (Rle_dec x _); [lra|].
        assert (x = eff r cell (p_r t)) as -> by lra. rewrite line_end by lra. done.
      - destruct (Rle_dec x _); [lra|]. destruct (Rge_dec x _); [done|lra]. }
    split.
    + intros x _. unfold between. split.
      * apply Rle_trans with (T (Rmin x q_cr)); [rewrite (TC (Rmin x q_cr)) by apply Rmin_r; lra|apply TM, Rmin_l].
      * apply Rle_trans with (T (Rmax x q_mx)); [apply TM, Rmax_l|rewrite (TX (Rmax x q_mx)) by apply Rmax_r; lra].
    + intros x z _ _. apply TM.
    + intros x _ Hx. rewrite TC by done. lra.
    + split; [apply EA|]. unfold T. unfold middle in *. destruct three.
      * destruct (Rle_dec _ _); [|lra]. destruct (Rle_dec _ _); [lra|]. apply line_end. lra.
      * destruct (Rle_dec _ _); [lra|]. destruct (Rge_dec _ _) as [Hge|].
        -- destruct Q3 as [?|Q3]; [lra|done].
        -- field. lra.
    + intros x _. apply TX.
Qed.

Context (k kr tested : list R) (u : R → R).
Context (Hk : has k cell) (Hkr : has kr cell).
Context (Hu : curve (between lo (p_mx t)) t u).
Notation q_k := (eff k cell (p_k t)).
Notation mv := (middle_value three cr r mx k kr t cell).
Context (Hval : 0 <= mv <= q_k).
Context (Hdiv : (kr = [] → k ≠ [] → 0 < p_k t) ∧ (kr ≠ [] → 0 < p_kr t) ∧ (kr ≠ [] → three = true → ¬ near three cr r mx t cell) ∧
  (kr ≠ [] → three = false → near three cr r mx t cell → k ≠ [] ∧ tested ≠ [])).

Lemma point_in x : between (p_cr t) (p_mx t) x → between lo (p_mx t) x. Proof using Ht. unfold between. lra. Qed.
Lemma table_values : 0 <= p_kr t <= p_k t ∧ (∀ y, between lo (p_mx t) y → 0 <= u y <= p_k t) ∧ (∀ y, between lo (p_mx t) y → y <= p_cr t → u y = 0) ∧ u (p_r t) = p_kr t ∧ u (p_mx t) = p_k t.
Proof using Hu Ht.
  destruct Hu as [M C Rr X]. destruct Ht as [Hlo Htt].
  assert (Er : u (p_r t) = p_kr t) by (apply Rr; unfold between; lra). assert (Ex : u (p_mx t) = p_k t) by (apply X; unfold between; lra). assert (Ec : u (p_cr t) = 0) by (apply C; unfold between; lra).
  assert (B : ∀ y, between lo (p_mx t) y → 0 <= u y <= p_k t).
  { intros y Hy. split.
    - destruct (Rle_or_lt y (p_cr t)); [rewrite (C y) by done; lra|]. rewrite <- Ec. apply M; unfold between in *; lra.
    - rewrite <- Ex. apply M; unfold between in *; lra. }
  split; [|split; [done|split; [apply C|done]]]. rewrite <- Er at 1 2. split; [apply B; unfold between; lra|]. rewrite Er, <- Er, <- Ex. apply M; unfold between; lra.
Qed.
Lemma one : ∃ f, curve (allowed cr mx lo (p_mx t)) (Points q_cr q_r q_mx mv q_k) f ∧
  ∀ x, (allowed cr mx lo (p_mx t)) x → ∃ y, scale_sat three cr r mx (p_cr t) (p_r t) (p_mx t) cell x = Some y ∧ between lo (p_mx t) y ∧
    scale_val three cr r mx k kr tested (p_cr t) (p_r t) (p_mx t) (p_k t) (p_kr t) cell x (u y) = Some (f x).
Proof using Hcr Hmx Hr Hq H3 Ht Hk Hkr Hu Hval Hdiv.
  destruct scale_sat_ok as (T & [T1 T2 T3 [T4 T5] T6] & ET). destruct table_values as (V1 & V2 & V3 & V4 & V5). pose proof (cv_mono _ _ _ Hu) as UM.
  destruct Hdiv as (Dv1 & Dv2 & Dv3 & Dv4). destruct Ht as [Hlo Htt]. destruct Hq as (Q1 & Q2 & Q3).
  (* the scaling in proportion *)
  assert (PROP : ∀ c, 0 <= c → c * p_k t = q_k → p_kr t * c = mv → curve (allowed cr mx lo (p_mx t)) (Points q_cr q_r q_mx mv q_k) (λ x, u (T x) * c)).
  { intros c Hc Ec Em. split; cbn [p_cr p_r p_mx p_kr p_k].
    - intros x z Hx Hz Hxz. apply Rmult_le_compat_r; [done|]. apply UM; [by apply T1|by apply T1|by apply T2].
    - intros x Hx Hle. rewrite (V3 (T x)); [lra|by apply T1|by apply T3].
    - intros _. rewrite T5, V4. done.
    - intros x Hx Hge. rewrite (T6 x Hx Hge), V5. lra. }
  assert (kr = [] ∨ ∃ a l, kr = a :: l) as [Ekr|(kr0 & krl & Ekr)] by (destruct kr; eauto).
  - assert (k = [] ∨ ∃ a l, k = a :: l) as [Ek|(k0 & kl & Ek)] by (destruct k; eauto).
    + exists (λ x, u (T x) * 1). split; [apply PROP; [lra|unfold eff; rewrite Ek; lra|unfold middle_value, proportional; rewrite ?Ekr, ?Ek; lra]|].
      intros x Hx. exists (T x). split; [by apply ET|]. split; [by apply T1|]. unfold scale_val. rewrite Ek, Ekr. f_equal. lra.
    + assert (Hkn : k ≠ []) by (by rewrite Ek). assert (Ekv : q_k = val k cell) by (unfold eff; by rewrite Ek). destruct Hk as [?|Hkl]; [done|]. specialize (Dv1 Ekr Hkn).
      assert (Emv : mv = p_kr t * (val k cell / p_k t)) by (unfold middle_value, proportional; by rewrite ?Ekr, ?Ek).
      assert (Hc : 0 <= val k cell / p_k t). { apply Rmult_le_pos; [|left; by apply Rinv_0_lt_compat]. rewrite <- Ekv. lra. }
      exists (λ x, u (T x) * (val k cell / p_k t)). split; [apply PROP; [done| |done]|].
      { rewrite Ekv. field. lra. }
      intros x Hx. exists (T x). split; [by apply ET|]. split; [by apply T1|]. unfold scale_val. rewrite Ekr. transitivity (a ← k !! cell; q ← rdiv a (p_k t); Some (u (T x) * q)); [by rewrite Ek|]. destruct (lookup_lt_is_Some_2 k cell Hkl) as [v Hv]. unfold val. rewrite Hv. cbn [mbind option_bind]. rewrite rdiv_Some by lra. done.
  - assert (Hkn : kr ≠ []) by (by rewrite Ekr). destruct Hkr as [?|Hkl]; [done|]. specialize (Dv2 Hkn). specialize (Dv3 Hkn). specialize (Dv4 Hkn).
    destruct (lookup_lt_is_Some_2 kr cell Hkl) as [vkr Hvkr].
    assert (EQr : (if three then or_default r cell (p_r t) else q ← rdiv ((p_r t - p_cr t) * (q_mx - q_cr)) (p_mx t - p_cr t); Some (q_cr + q)) = Some q_r).
    { unfold middle. destruct three; [by apply or_default_eff|]. rewrite rdiv_Some by lra. done. }
    assert (EV : ∀ x v, scale_val three cr r mx k kr tested (p_cr t) (p_r t) (p_mx t) (p_k t) (p_kr t) cell x v =
      if Rle_dec x q_cr then Some 0
      else if Rgt_dec q_r (q_mx - / 1000000) then
        if three then a ← kr !! cell; q ← rdiv a (p_kr t); Some (v * q)
        else match tested with [] => Some v | _ => a ← k !! cell; q ← rdiv a (p_k t); Some (v * q) end
      else if Rle_dec x q_r then a ← kr !! cell; q ← rdiv a (p_kr t); Some (v * q)
      else if Rle_dec x q_mx then
        krw ← or_default k cell (p_k t);
        krwr ← or_default kr cell (p_kr t);
        if Rgt_dec (Rabs (p_k t - p_kr t)) (/ 1000000) then q ← rdiv ((v - p_kr t) * (krw - krwr)) (p_k t - p_kr t); Some (krwr + q)
        else q ← rdiv ((krw - krwr) * (x - q_r)) (q_mx - q_r); Some (krwr + q)
      else or_default k cell (p_k t)).
    { intros x v. unfold scale_val. rewrite (or_default_eff cr), (or_default_eff mx) by done. cbn [mbind option_bind]. cbn [mbind option_bind] in EQr. rewrite EQr. cbn [mbind option_bind]. rewrite Ekr. destruct k; done. }
    destruct (Rlt_dec (q_mx - / 1000000) q_r) as [Hn|Hn].
    + (* nearly the same point *)
      assert (E3 : three = false). { destruct three; [|done]. exfalso. apply Dv3; [done|exact Hn]. }
      destruct (Dv4 E3 Hn) as [Kn Tn]. destruct Hk as [?|Hkl']; [done|]. destruct (lookup_lt_is_Some_2 k cell Hkl') as [vk Hvk].
      assert (Ekv : q_k = vk) by (unfold eff, val; rewrite Hvk; by destruct k). assert (Epk : 0 < p_k t) by lra.
      assert (Emv : mv = p_kr t * (vk / p_k t)). { unfold middle_value. rewrite Ekr, E3. rewrite E3 in Hn. destruct (Rlt_dec _ _); [|done]. unfold proportional, val. rewrite Hvk. by destruct k. }
      exists (λ x, u (T x) * (vk / p_k t)). split.
      { apply PROP; [|rewrite Ekv; field; lra|done]. apply Rmult_le_pos; [|left; by apply Rinv_0_lt_compat]. rewrite <- Ekv. lra. }
      intros x Hx. exists (T x). split; [by apply ET|]. split; [by apply T1|]. rewrite EV. destruct (Rle_dec x q_cr) as [Hle|].
      { rewrite (V3 (T x)); [f_equal; lra|by apply T1|by apply T3]. }
      destruct (Rgt_dec _ _); [|lra]. rewrite E3. destruct tested; [done|]. rewrite Hvk. cbn [mbind option_bind]. rewrite rdiv_Some by lra. done.
    + (* three zones *)
      assert (Emv : mv = vkr). { unfold middle_value. rewrite Ekr. rewrite <- Ekr. unfold val. rewrite Hvkr. cbn [default from_option Datatypes.id]. destruct three; [done|]. destruct (Rlt_dec _ _); [|done]. done. }
      rewrite Emv in *. assert (Evk : eff kr cell (p_kr t) = vkr) by (unfold eff, val; rewrite Hvkr; by destruct kr).
      set (g := λ x, if Rgt_dec (Rabs (p_k t - p_kr t)) (/ 1000000) then vkr + (u (T x) - p_kr t) * (q_k - vkr) / (p_k t - p_kr t) else vkr + (x - q_r) * (q_k - vkr) / (q_mx - q_r)).
      set (f := λ x, if Rle_dec x q_cr then 0 else if Rle_dec x q_r then u (T x) * (vkr / p_kr t) else if Rle_dec x q_mx then g x else q_k).
      assert (Hc : 0 <= vkr / p_kr t) by (apply Rmult_le_pos; [lra|left; by apply Rinv_0_lt_compat]).
      assert (Hgap : q_r < q_mx) by lra.
      assert (Z2 : ∀ x, (allowed cr mx lo (p_mx t)) x → x <= q_r → 0 <= u (T x) * (vkr / p_kr t) <= vkr).
      { intros x Hx Hle. pose proof (V2 (T x) (T1 x Hx)) as B. assert (u (T x) <= p_kr t). { rewrite <- V4, <- T5. apply UM; [by apply T1|by apply T1|by apply T2]. }
        split; [apply Rmult_le_pos; lra|]. replace vkr with (p_kr t * (vkr / p_kr t)) at 2 by (field; lra). apply Rmult_le_compat_r; done. }
      assert (Z3 : ∀ x z, (allowed cr mx lo (p_mx t)) x → (allowed cr mx lo (p_mx t)) z → q_r <= x → x <= z → z <= q_mx → vkr <= g x <= g z ∧ g z <= q_k).
      { intros x z Hx Hz H1 H2 H4. unfold g. destruct (Rgt_dec (Rabs (p_k t - p_kr t)) (/ 1000000)) as [Hgt|Hgt].
        - assert (p_kr t < p_k t). { unfold Rabs in Hgt. destruct (Rcase_abs (p_k t - p_kr t)); lra. }
          assert (p_kr t <= u (T x)) as B1. { rewrite <- V4, <- T5. apply UM; [by apply T1|by apply T1|by apply T2]. }
          assert (u (T x) <= u (T z)) as B2 by (apply UM; [by apply T1|by apply T1|by apply T2]). pose proof (V2 (T z) (T1 z Hz)) as B3.
          split; [split|].
          + apply (line_between (p_kr t) (p_k t) vkr q_k (u (T x))); lra.
          + apply line_mono; lra.
          + apply (line_between (p_kr t) (p_k t) vkr q_k (u (T z))); lra.
        - split; [split|].
          + apply (line_between q_r q_mx vkr q_k x); lra.
          + apply line_mono; lra.
          + apply (line_between q_r q_mx vkr q_k z); lra. }
      exists f. split.
      { split; cbn [p_cr p_r p_mx p_kr p_k].
        - intros x z Hx Hz Hxz. unfold f. destruct (Rle_dec x q_cr); [|destruct (Rle_dec x q_r); [|destruct (Rle_dec x q_mx)]]; (destruct (Rle_dec z q_cr); [|destruct (Rle_dec z q_r); [|destruct (Rle_dec z q_mx)]]); try lra.
          + apply Z2; [done|lra].
          + pose proof (Z3 z z Hz Hz ltac:(lra) ltac:(lra) ltac:(lra)). lra.
          + apply Rmult_le_compat_r; [done|]. apply UM; [by apply T1|by apply T1|by apply T2].
          + pose proof (Z2 x Hx ltac:(lra)). pose proof (Z3 z z Hz Hz ltac:(lra) ltac:(lra) ltac:(lra)). lra.
          + pose proof (Z2 x Hx ltac:(lra)). lra.
          + apply (Z3 x z); lra || done.
          + pose proof (Z3 x x Hx Hx ltac:(lra) ltac:(lra) ltac:(lra)). lra.
        - intros x Hx Hle. unfold f. destruct (Rle_dec x q_cr); [done|lra].
        - intros _. unfold f. destruct (Rle_dec q_r q_cr); [lra|]. destruct (Rle_dec q_r q_r); [|lra]. rewrite T5, V4. field. lra.
        - intros x Hx Hge. unfold f. destruct (Rle_dec x q_cr); [lra|]. destruct (Rle_dec x q_r); [lra|]. destruct (Rle_dec x q_mx); [|done]. unfold g. destruct (Rgt_dec (Rabs (p_k t - p_kr t)) (/ 1000000)) as [Hgt|Hgt].
          + rewrite (T6 x Hx Hge), V5. apply line_end. unfold Rabs in Hgt. destruct (Rcase_abs (p_k t - p_kr t)); lra.
          + assert (x = q_mx) as -> by lra. by apply line_end. }
      intros x Hx. exists (T x). split; [by apply ET|]. split; [by apply T1|]. rewrite EV. unfold f. destruct (Rle_dec x q_cr); [done|]. destruct (Rgt_dec _ _); [lra|].
      rewrite Hvkr. cbn [mbind option_bind]. rewrite !rdiv_Some by lra. cbn [mbind option_bind]. destruct (Rle_dec x q_r); [done|]. rewrite !or_default_eff by (done || by right). cbn [mbind option_bind]. destruct (Rle_dec x q_mx); [|done].
      rewrite Evk. unfold g. destruct (Rgt_dec (Rabs (p_k t - p_kr t)) (/ 1000000)) as [Hgt|Hgt]; [|rewrite rdiv_Some by lra; cbn [mbind option_bind]; f_equal; unfold Rdiv; lra].
      rewrite rdiv_Some; [done|]. unfold Rabs in Hgt. destruct (Rcase_abs (p_k t - p_kr t)); lra.
Qed.
End scale.
(** C64 for one phase: a table that is a curve through the points [t] becomes one
    through the scaled points. *)
Theorem C64_one three cr r mx k kr tested t cell lo u : lo <= p_cr t → p_cr t < p_r t → p_r t <= p_mx t → curve (between lo (p_mx t)) t u →
  proper three cr r mx k kr tested t cell →
  ∃ f, curve (allowed cr mx lo (p_mx t)) (scaled three cr r mx k kr t cell) f ∧
    ∀ x, allowed cr mx lo (p_mx t) x → ∃ y, scale_sat three cr r mx (p_cr t) (p_r t) (p_mx t) cell x = Some y ∧ between lo (p_mx t) y ∧
      scale_val three cr r mx k kr tested (p_cr t) (p_r t) (p_mx t) (p_k t) (p_kr t) cell x (u y) = Some (f x).
Proof.
  intros H1 H2 H3 Hu [(A1 & A2 & A3 & A4 & A5) B C (D1 & D2) N]. cbn in B. destruct B as (B1 & B2 & B3 & B4). apply one; try done. split_and!; try done.
  - intros Hk E Hn. destruct (N Hk Hn) as (? & _). congruence.
  - intros Hk E Hn. by apply N.
Qed.
Print Assumptions C64_one.
