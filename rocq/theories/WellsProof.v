(** Proofs about the wells model. *)
From Verif Require Import Base WellsModel WellsSpec.

Section proof.
Context {V name_t : Type}.
Variables vzero vminus1 : V.
Variable J : junk V name_t.
Implicit Types (W : wells V name_t) (a : list (awell V name_t * bool)) (o : list bool).

Notation awell := (awell V name_t).
Notation actrl := (actrl V).
Notation ctrl := (ctrl V).
Notation wells := (wells V name_t).
Notation op := (op V name_t).

Local Ltac nil := repeat progress (simpl in *; simplify_eq); try naive_solver.

(** ** Invariants *)

Record crel (np : nat) (c : ctrl) (l : list actrl) (cur : Z) (cl : bool) : Prop := {
  cr_num : c_num c = length l;
  cr_le : c_num c ≤ c_cpty c;
  cr_ty : c_cpty c ≤ length (c_type c);
  cr_tg : c_cpty c ≤ length (c_target c);
  cr_ds : c_cpty c * np ≤ length (c_distr c);
  cr_get : ∀ k x, l !! k = Some x →
     c_type c !! k = Some (ac_type x) ∧ c_target c !! k = Some (ac_target x) ∧
     slice (c_distr c) (k * np) np = Some (ac_distr x);
  cr_clean : cl = false → ∀ k, c_num c ≤ k → k < c_cpty c →
     slice (c_distr c) (k * np) np = Some (replicate np vzero);
  cr_cur : c_current c = cur }.

Definition off (a : list (awell * bool)) (i : nat) : nat :=
  sum_list ((λ w, length (aw_perfs w.1)) <$> take i a).

Record rel (W : wells) (a : list (awell * bool)) : Prop := {
  r_nw : w_nw W = length a;
  r_le : w_nw W ≤ w_well_cpty W;
  r_lty : w_well_cpty W ≤ length (w_type W);
  r_ldp : w_well_cpty W ≤ length (w_depth W);
  r_lnm : w_well_cpty W ≤ length (w_name W);
  r_lcs : w_well_cpty W ≤ length (w_ctrls W);
  r_lcf : w_np W * w_well_cpty W ≤ length (w_comp_frac W);
  r_lcp : S (w_well_cpty W) ≤ length (w_connpos W);
  r_lcl : w_perf_cpty W ≤ length (w_cells W);
  r_lwi : w_perf_cpty W ≤ length (w_WI W);
  r_cp : ∀ i, i ≤ w_nw W → w_connpos W !! i = Some (off a i);
  r_perf : off a (w_nw W) ≤ w_perf_cpty W;
  r_well : ∀ i w cl, a !! i = Some (w, cl) →
     w_type W !! i = Some (aw_type w) ∧ w_depth W !! i = Some (aw_depth w) ∧
     w_name W !! i = Some (aw_name w) ∧
     slice (w_comp_frac W) (w_np W * i) (w_np W) = Some (aw_frac w) ∧
     slice (w_cells W) (off a i) (length (aw_perfs w)) = Some ((aw_perfs w).*1) ∧
     slice (w_WI W) (off a i) (length (aw_perfs w)) = Some ((aw_perfs w).*2) ∧
     ∃ c, w_ctrls W !! i = Some (Some c) ∧
          crel (w_np W) c (aw_ctrls w) (aw_current w) cl;
  r_free : ∀ i, w_nw W ≤ i → i < w_well_cpty W →
     w_name W !! i = Some None ∧ w_ctrls W !! i = Some (Some fresh_ctrl) ∧
     slice (w_comp_frac W) (w_np W * i) (w_np W) = Some (replicate (w_np W) vzero);
  r_freep : ∀ k, off a (w_nw W) ≤ k → k < w_perf_cpty W → w_WI W !! k = Some vzero }.

(** ** Arithmetic of offsets *)

Lemma off_0 a : off a 0 = 0.
Proof. done. Qed.

Lemma off_S a i w cl :
  a !! i = Some (w, cl) → off a (S i) = off a i + length (aw_perfs w).
Proof.
  intros H. unfold off. rewrite (take_S_r _ _ _ H), fmap_app. simpl.
  rewrite sum_list_with_app. simpl. lia.
Qed.

Lemma off_mono a i j : i ≤ j → off a i ≤ off a j.
Proof.
  intros H. unfold off.
  replace (take j a) with (take i a ++ drop i (take j a)).
  - rewrite fmap_app, sum_list_with_app. lia.
  - rewrite <- (take_drop i (take j a)) at 2. rewrite take_take.
    by rewrite Nat.min_l by lia.
Qed.

Lemma off_app a b i : i ≤ length a → off (a ++ b) i = off a i.
Proof. intros. unfold off. by rewrite take_app_le by done. Qed.

Lemma off_insert a i j x w cl :
  a !! i = Some (w, cl) → length (aw_perfs x.1) = length (aw_perfs w) →
  off (<[i:=x]> a) j = off a j.
Proof.
  intros Hi Hx. unfold off.
  destruct (decide (i < j)) as [Hlt|Hge].
  - rewrite take_insert_lt || idtac; [|lia].
    f_equal. rewrite list_fmap_insert. apply list_insert_id.
    rewrite list_lookup_fmap, lookup_take by done. rewrite Hi. simpl. by f_equal.
  - by rewrite take_insert by lia.
Qed.

Lemma alloc_size_ge n k c : n + k ≤ alloc_size n k c ∧ c ≤ alloc_size n k c.
Proof. unfold alloc_size. repeat case_decide; lia. Qed.

(** ** Growing arrays *)

Lemma cond_realloc_length {A} (b : bool) (j : A) n l m :
  m ≤ n → m ≤ length l → m ≤ length (if b then realloc_arr j n l else l).
Proof. destruct b; rewrite ?realloc_arr_length; lia. Qed.

Lemma cond_realloc_lookup {A} (b : bool) (j : A) n l m i :
  m ≤ n → m ≤ length l → i < m → (if b then realloc_arr j n l else l) !! i = l !! i.
Proof. intros. destruct b; [apply realloc_arr_lookup; lia|done]. Qed.

Lemma memcpy_is_Some {A} (l : list A) off src :
  off + length src ≤ length l → ∃ l', memcpy l off src = Some l'.
Proof. intros H. rewrite memcpy_Some by done. eauto. Qed.

Lemma slice_replicate {A} (l : list A) off n x :
  (∀ i, i < n → l !! (off + i) = Some x) → slice l off n = Some (replicate n x).
Proof.
  intros H. apply slice_pointwise; [by rewrite replicate_length|].
  intros i Hi. rewrite H by done. by rewrite lookup_replicate_2.
Qed.

(** ** Controls *)

Lemma reserve_ctrl np c l cur cl nctrl o :
  crel np c l cur cl → c_cpty c ≤ nctrl →
  ∃ b c' o', well_controls_reserve vzero vminus1 J nctrl np c o = Some (b, c', o') ∧
    crel np c' l cur cl ∧ (b = true → c_cpty c' = nctrl) ∧
    (b = false → c_cpty c' = c_cpty c) ∧ (o = [] → b = true ∧ o' = []).
Proof.
  intros [Hnum Hle Hty Htg Hds Hget Hclean Hcur] Hn. unfold well_controls_reserve.
  destruct (next_alloc o) as [b1 o1] eqn:E1.
  destruct (next_alloc o1) as [b2 o2] eqn:E2.
  destruct (next_alloc o2) as [b3 o3] eqn:E3.
  assert (c_cpty c * np ≤ nctrl * np) as Hm by (apply Nat.mul_le_mono_r; done).
  destruct (b1 && b2 && b3) eqn:Eb.
  - apply andb_true_iff in Eb as [Eb ->]. apply andb_true_iff in Eb as [-> ->].
    destruct (memcpy_is_Some (realloc_arr (j_ct J) nctrl (c_type c)) (c_cpty c)
                (replicate (nctrl - c_cpty c) BHP)) as [ty' Ety].
    { rewrite realloc_arr_length, replicate_length. lia. }
    destruct (memcpy_is_Some (realloc_arr (j_V J) nctrl (c_target c)) (c_cpty c)
                (replicate (nctrl - c_cpty c) vminus1)) as [tg' Etg].
    { rewrite realloc_arr_length, replicate_length. lia. }
    destruct (memcpy_is_Some (realloc_arr (j_V J) (nctrl * np) (c_distr c)) (c_cpty c * np)
                (replicate (nctrl * np - c_cpty c * np) vzero)) as [ds' Eds].
    { rewrite realloc_arr_length, replicate_length. lia. }
    rewrite Ety, Etg, Eds. simpl.
    eexists _, _, _. split; [done|]. split_and!; [|done|done|].
    2:{ intros ->. nil. }
    assert (length ty' = nctrl) as Lty
      by (rewrite (memcpy_length _ _ _ _ Ety); apply realloc_arr_length).
    assert (length tg' = nctrl) as Ltg
      by (rewrite (memcpy_length _ _ _ _ Etg); apply realloc_arr_length).
    assert (length ds' = nctrl * np) as Lds
      by (rewrite (memcpy_length _ _ _ _ Eds); apply realloc_arr_length).
    split; simpl; try lia.
    + intros k x Hk. destruct (Hget k x Hk) as (H1 & H2 & H3).
      pose proof (lookup_lt_Some _ _ _ Hk) as Hlt.
      assert ((k + 1) * np ≤ c_cpty c * np) as Hkn by (apply Nat.mul_le_mono_r; lia).
      split_and!.
      * rewrite (memcpy_lookup_lt _ _ _ _ _ Ety) by lia.
        rewrite realloc_arr_lookup by lia. done.
      * rewrite (memcpy_lookup_lt _ _ _ _ _ Etg) by lia.
        rewrite realloc_arr_lookup by lia. done.
      * rewrite <- H3. apply slice_ext. intros i Hi1 Hi2.
        rewrite (memcpy_lookup_lt _ _ _ _ _ Eds) by lia.
        rewrite realloc_arr_lookup by lia. done.
    + intros Hcl k Hk1 Hk2.
      destruct (decide (k < c_cpty c)) as [Hlt|Hge].
      * rewrite <- (Hclean Hcl k) by lia.
        assert ((k + 1) * np ≤ c_cpty c * np) as Hkn by (apply Nat.mul_le_mono_r; lia).
        apply slice_ext. intros i Hi1 Hi2.
        rewrite (memcpy_lookup_lt _ _ _ _ _ Eds) by lia.
        rewrite realloc_arr_lookup by lia. done.
      * assert (c_cpty c * np ≤ k * np) as Hkn by (apply Nat.mul_le_mono_r; lia).
        assert ((k + 1) * np ≤ nctrl * np) as Hkn' by (apply Nat.mul_le_mono_r; lia).
        apply slice_replicate. intros i Hi.
        replace (k * np + i) with (c_cpty c * np + (k * np + i - c_cpty c * np)) by lia.
        rewrite (memcpy_lookup_mid _ _ _ _ _ Eds) by (rewrite replicate_length; lia).
        rewrite lookup_replicate_2; [done|lia].
  - eexists _, _, _. split; [done|]. split_and!; [|done|done|].
    2:{ intros ->. nil. }
    assert (∀ b, c_cpty c ≤ length (if (b : bool) then realloc_arr (j_ct J) nctrl (c_type c) else c_type c)) as L1
      by (intros; apply cond_realloc_length; lia).
    assert (∀ b, c_cpty c ≤ length (if (b : bool) then realloc_arr (j_V J) nctrl (c_target c) else c_target c)) as L2
      by (intros; apply cond_realloc_length; lia).
    assert (∀ b, c_cpty c * np ≤ length (if (b : bool) then realloc_arr (j_V J) (nctrl*np) (c_distr c) else c_distr c)) as L3
      by (intros; apply cond_realloc_length; lia).
    split; simpl; auto.
    + intros k x Hk. destruct (Hget k x Hk) as (H1 & H2 & H3).
      pose proof (lookup_lt_Some _ _ _ Hk) as Hlt.
      assert ((k + 1) * np ≤ c_cpty c * np) as Hkn by (apply Nat.mul_le_mono_r; lia).
      split_and!.
      * rewrite (cond_realloc_lookup _ _ _ _ (c_cpty c)) by lia. done.
      * rewrite (cond_realloc_lookup _ _ _ _ (c_cpty c)) by lia. done.
      * rewrite <- H3. apply slice_ext. intros i Hi1 Hi2.
        apply (cond_realloc_lookup _ _ _ _ (c_cpty c * np)); lia.
    + intros Hcl k Hk1 Hk2. rewrite <- (Hclean Hcl k) by lia.
      assert ((k + 1) * np ≤ c_cpty c * np) as Hkn by (apply Nat.mul_le_mono_r; lia).
      apply slice_ext. intros i Hi1 Hi2.
      apply (cond_realloc_lookup _ _ _ _ (c_cpty c * np)); lia.
Qed.

Lemma slice_total {A} (l : list A) off n :
  off + n ≤ length l → ∃ r, slice l off n = Some r ∧ length r = n.
Proof. intros H. rewrite slice_Some by done. eexists; split; [done|].
  rewrite take_length, drop_length. lia. Qed.

Lemma ctrl_append_correct ty tg ds np c l cur cl o :
  crel np c l cur cl → (∀ x, ds = Some x → length x = np) →
  ∃ b c' o', ctrl_append vzero vminus1 J ty tg ds np c o = Some (b, c', o') ∧
    (b = false → crel np c' l cur cl) ∧
    (b = true → ∃ d, length d = np ∧ (∀ x, ds = Some x → d = x) ∧
        (ds = None → cl = false → d = replicate np vzero) ∧
        crel np c' (l ++ [ACtrl ty tg d]) cur cl) ∧
    (o = [] → b = true ∧ o' = []) ∧
    (c_num c < c_cpty c → b = true ∧ o' = o ∧ c_cpty c' = c_cpty c).
Proof.
  intros Hc Hds. unfold ctrl_append.
  assert (∃ b c1 o1, (if decide (c_num c < c_cpty c) then Some (true, c, o)
       else well_controls_reserve vzero vminus1 J (alloc_size (c_num c) 1 (c_cpty c)) np c o)
       = Some (b, c1, o1) ∧ crel np c1 l cur cl ∧ (b = true → c_num c1 < c_cpty c1) ∧
       (o = [] → b = true ∧ o1 = []) ∧ (c_num c < c_cpty c → b = true ∧ o1 = o ∧ c1 = c)) as (b & c1 & o1 & -> & Hc1 & Hb & Ho & Hcap).
  { case_decide.
    - eexists _, _, _. split; [done|]. naive_solver.
    - destruct (alloc_size_ge (c_num c) 1 (c_cpty c)) as [H1 H2].
      destruct (reserve_ctrl np c l cur cl _ o Hc H2) as (b & c1 & o1 & -> & Hc1 & Hb & _ & Ho).
      eexists _, _, _. split; [done|]. split; [done|]. split; [|split; [done|lia]].
      intros Hbt. rewrite (Hb Hbt). destruct Hc, Hc1. lia. }
  simpl. destruct b; simpl.
  2:{ eexists _, _, _. split; [done|]. split_and!; try done. intros Hx. by destruct (Hcap Hx). }
  specialize (Hb eq_refl). pose proof Hc1 as [Hnum Hle Hty Htg Hdl Hget Hclean Hcur].
  rewrite upd_Some by lia. simpl. rewrite upd_Some by lia. simpl.
  assert ((c_num c1 + 1) * np ≤ c_cpty c1 * np) as Hkn by (apply Nat.mul_le_mono_r; lia).
  assert (∃ dss d, (match ds with
           | Some x => if decide (length x = np)
                       then memcpy (c_distr c1) (c_num c1 * np) x else None
           | None => Some (c_distr c1)
           end) = Some dss ∧ length dss = length (c_distr c1) ∧ length d = np ∧
        slice dss (c_num c1 * np) np = Some d ∧
        (∀ x, ds = Some x → d = x) ∧ (ds = None → cl = false → d = replicate np vzero) ∧
        (∀ i, i < c_num c1 * np → dss !! i = c_distr c1 !! i) ∧
        (∀ i, (c_num c1 + 1) * np ≤ i → dss !! i = c_distr c1 !! i))
     as (dss & d & -> & Hlen & Hd & Hsl & Hd1 & Hd2 & Hlo & Hhi).
  { destruct ds as [x|].
    - rewrite decide_True by auto.
      destruct (memcpy_is_Some (c_distr c1) (c_num c1 * np) x) as [dss E].
      { rewrite (Hds x) by done. lia. }
      exists dss, x. specialize (Hds x eq_refl). split_and!; try done.
      + by apply memcpy_length in E.
      + rewrite <- Hds. rewrite <- Hds in E. by apply slice_memcpy in E.
      + naive_solver.
      + intros i Hi. by apply (memcpy_lookup_lt _ _ _ _ _ E).
      + intros i Hi. apply (memcpy_lookup_ge _ _ _ _ _ E). lia.
    - destruct (slice_total (c_distr c1) (c_num c1 * np) np) as (d & Hd & Hl); [lia|].
      exists (c_distr c1), d. split_and!; try done.
      intros _ Hcl. specialize (Hclean Hcl (c_num c1)). rewrite Hclean in Hd by lia.
      by simplify_eq. }
  simpl. eexists _, _, _. split; [done|]. split_and!; try done.
  2:{ intros Hx. destruct (Hcap Hx) as (_ & -> & ->). done. }
  intros _. exists d. split_and!; try done.
  split; simpl.
  - rewrite app_length. simpl. lia.
  - lia.
  - rewrite insert_length. done.
  - rewrite insert_length. done.
  - lia.
  - intros k x Hk. destruct (decide (k < length l)) as [Hlt|Hge].
    + rewrite lookup_app_l in Hk by done. destruct (Hget k x Hk) as (H1 & H2 & H3).
      rewrite !list_lookup_insert_ne by lia. split_and!; try done.
      rewrite <- H3. apply slice_ext. intros i _ Hi. apply Hlo.
      assert ((k + 1) * np ≤ c_num c1 * np) by (apply Nat.mul_le_mono_r; lia). lia.
    + pose proof (lookup_lt_Some _ _ _ Hk) as Hk'. rewrite app_length in Hk'. simpl in Hk'.
      assert (k = length l) as -> by lia.
      rewrite lookup_app_r in Hk by done. rewrite Nat.sub_diag in Hk. simpl in Hk. simplify_eq. simpl.
      rewrite <- Hnum. rewrite !list_lookup_insert by lia. done.
  - intros Hcl k Hk1 Hk2. rewrite <- (Hclean Hcl k) by lia.
    apply slice_ext. intros i Hi _. apply Hhi.
    assert ((c_num c1 + 1) * np ≤ k * np) by (apply Nat.mul_le_mono_r; lia). lia.
  - done.
Qed.

(** ** Reserving space for wells *)

Lemma init_connpos_correct n w cp :
  w + n < length cp →
  ∃ cp', init_connpos n w cp = Some cp' ∧ length cp' = length cp ∧
    (∀ i, i ≤ w → cp' !! i = cp !! i).
Proof.
  revert w cp. induction n as [|n IH]; intros w cp H; simpl.
  - eauto.
  - destruct (lookup_lt_is_Some_2 cp w) as [x Hx]; [lia|]. rewrite Hx. simpl.
    rewrite upd_Some by lia. simpl.
    destruct (IH (S w) (<[S w:=x]> cp)) as (cp' & -> & Hl & Hk).
    { rewrite insert_length. lia. }
    exists cp'. split; [done|]. rewrite insert_length in Hl. split; [done|].
    intros i Hi. rewrite Hk by lia. by rewrite list_lookup_insert_ne by lia.
Qed.

Lemma init_ctrls_correct n w (cs : list (option ctrl)) o :
  w + n ≤ length cs →
  ∃ b cs' o', init_ctrls n w cs o = Some (b, cs', o') ∧ length cs' = length cs ∧
    (∀ i, i < w → cs' !! i = cs !! i) ∧
    (b = true → ∀ i, w ≤ i → i < w + n → cs' !! i = Some (Some fresh_ctrl)) ∧
    (o = [] → b = true ∧ o' = []).
Proof.
  revert w cs o. induction n as [|n IH]; intros w cs o H; cbn [init_ctrls].
  - eexists _, _, _. split; [done|]. split_and!; try done. intros; lia.
  - destruct (well_controls_create o) as [c o1] eqn:E.
    rewrite upd_Some by lia. simpl. destruct c as [c|].
    + assert (c = fresh_ctrl ∧ (o = [] → o1 = [])) as [-> Ho].
      { unfold well_controls_create in E.
        destruct (next_alloc o) as [[] oo] eqn:E1; [|done].
        destruct (next_alloc oo) as [[] oo2] eqn:E2; [|done].
        simplify_eq. split; [done|]. intros ->. nil. }
      destruct (IH (S w) (<[w:=Some fresh_ctrl]> cs) o1) as (b & cs' & o' & -> & Hl & Hlo & Hhi & Hoo).
      { rewrite insert_length. lia. }
      rewrite insert_length in Hl. eexists _, _, _. split; [done|]. split_and!; try done.
      * intros i Hi. rewrite Hlo by lia. by rewrite list_lookup_insert_ne by lia.
      * intros Hb i Hi1 Hi2. destruct (decide (i = w)) as [->|].
        -- rewrite Hlo by lia. by rewrite list_lookup_insert by lia.
        -- apply Hhi; [done|lia|lia].
      * naive_solver.
    + destruct (memcpy_is_Some (<[w:=None]> cs) (S w) (replicate n None)) as [cs' E'].
      { rewrite insert_length, replicate_length. lia. }
      rewrite E'. simpl. eexists _, _, _. split; [done|]. split_and!; try done.
      * apply memcpy_length in E'. by rewrite insert_length in E'.
      * intros i Hi. rewrite (memcpy_lookup_lt _ _ _ _ _ E') by lia.
        by rewrite list_lookup_insert_ne by lia.
      * intros ->. unfold well_controls_create in E. simpl in E. done.
Qed.

Lemma rel_slice_frac_ext W (cf : list V) i m :
  (∀ k, k < w_np W * m → cf !! k = w_comp_frac W !! k) → i < m →
  slice cf (w_np W * i) (w_np W) = slice (w_comp_frac W) (w_np W * i) (w_np W).
Proof.
  intros H Hi. apply slice_ext. intros k Hk1 Hk2. apply H.
  assert (w_np W * (i + 1) ≤ w_np W * m) by (apply Nat.mul_le_mono_l; lia). lia.
Qed.

Lemma reserve_wells_part_correct nwells W a o :
  rel W a →
  ∃ b W' o', reserve_wells_part vzero vminus1 J nwells W o = Some (b, W', o') ∧
    rel W' a ∧ (b = true → nwells ≤ w_well_cpty W') ∧ w_np W' = w_np W ∧
    w_well_cpty W ≤ w_well_cpty W' ∧
    w_perf_cpty W' = w_perf_cpty W ∧ (o = [] → b = true ∧ o' = []).
Proof.
  intros HR. pose proof HR as [Hnw Hle Hlty Hldp Hlnm Hlcs Hlcf Hlcp Hlcl Hlwi Hcp Hperf Hwell Hfree Hfreep].
  unfold reserve_wells_part. case_decide as Hd.
  2:{ eexists _, _, _. split; [done|]. split; [done|]. split_and!; try done; lia. }
  unfold wells_allocate.
  destruct (next_alloc o) as [b1 o1] eqn:E1. destruct (next_alloc o1) as [b2 o2] eqn:E2.
  destruct (next_alloc o2) as [b3 o3] eqn:E3. destruct (next_alloc o3) as [b4 o4] eqn:E4.
  destruct (next_alloc o4) as [b5 o5] eqn:E5. destruct (next_alloc o5) as [b6 o6] eqn:E6.
  assert (w_np W * w_well_cpty W ≤ w_np W * nwells) as Hnpn by (apply Nat.mul_le_mono_l; lia).
  destruct (b1 && b2 && b3 && b4 && b5 && b6) eqn:Eb.
  - apply andb_true_iff in Eb as [Eb ->]. apply andb_true_iff in Eb as [Eb ->].
    apply andb_true_iff in Eb as [Eb ->]. apply andb_true_iff in Eb as [Eb ->].
    apply andb_true_iff in Eb as [-> ->].
    unfold initialise_new_wells. cbn [w_type w_depth w_name w_comp_frac w_connpos w_ctrls w_np w_well_cpty w_nw w_cells w_WI w_perf_cpty].
    set (w0 := w_well_cpty W) in *. set (n := nwells - w0).
    destruct (memcpy_is_Some (realloc_arr (j_wt J) nwells (w_type W)) w0 (replicate n PRODUCER)) as [ty Ety];
      [rewrite realloc_arr_length, replicate_length; lia|].
    destruct (memcpy_is_Some (realloc_arr (j_V J) nwells (w_depth W)) w0 (replicate n vminus1)) as [dp Edp];
      [rewrite realloc_arr_length, replicate_length; lia|].
    destruct (memcpy_is_Some (realloc_arr (j_name J) nwells (w_name W)) w0 (replicate n None)) as [nm Enm];
      [rewrite realloc_arr_length, replicate_length; lia|].
    destruct (memcpy_is_Some (realloc_arr (j_V J) (w_np W * nwells) (w_comp_frac W)) (w_np W * w0)
                (replicate (w_np W * n) vzero)) as [cf Ecf].
    { rewrite realloc_arr_length, replicate_length. unfold n. rewrite Nat.mul_sub_distr_l. lia. }
    destruct (init_connpos_correct n w0 (realloc_arr (j_nat J) (S nwells) (w_connpos W))) as (cp & Ecp & Lcp & Kcp);
      [rewrite realloc_arr_length; lia|].
    destruct (init_ctrls_correct n w0 (realloc_arr (j_ctrl J) nwells (w_ctrls W)) o6) as (b & cs & o7 & Ecs & Lcs & Kcs & Ncs & Ocs);
      [rewrite realloc_arr_length; lia|].
    rewrite Ety, Edp, Enm, Ecf, Ecp, Ecs. simpl.
    pose proof (memcpy_length _ _ _ _ Ety) as Lty. pose proof (memcpy_length _ _ _ _ Edp) as Ldp.
    pose proof (memcpy_length _ _ _ _ Enm) as Lnm. pose proof (memcpy_length _ _ _ _ Ecf) as Lcf.
    rewrite realloc_arr_length in Lty. rewrite realloc_arr_length in Ldp. rewrite realloc_arr_length in Lnm. rewrite realloc_arr_length in Lcf. rewrite realloc_arr_length in Lcp. rewrite realloc_arr_length in Lcs.
    assert (∀ k, k < w_np W * w0 → cf !! k = w_comp_frac W !! k) as Kcf.
    { intros k Hk. rewrite (memcpy_lookup_lt _ _ _ _ _ Ecf) by done. apply realloc_arr_lookup; lia. }
    (* facts shared by both outcomes *)
    assert (∀ i w cl, a !! i = Some (w, cl) →
       ty !! i = Some (aw_type w) ∧ dp !! i = Some (aw_depth w) ∧ nm !! i = Some (aw_name w) ∧
       slice cf (w_np W * i) (w_np W) = Some (aw_frac w) ∧
       ∃ c, cs !! i = Some (Some c) ∧ crel (w_np W) c (aw_ctrls w) (aw_current w) cl) as Hwell'.
    { intros i w cl Hi. destruct (Hwell i w cl Hi) as (H1 & H2 & H3 & H4 & _ & _ & c & H7 & H8).
      pose proof (lookup_lt_Some _ _ _ Hi) as Hlt.
      split_and!.
      - rewrite (memcpy_lookup_lt _ _ _ _ _ Ety) by lia. rewrite realloc_arr_lookup by lia. done.
      - rewrite (memcpy_lookup_lt _ _ _ _ _ Edp) by lia. rewrite realloc_arr_lookup by lia. done.
      - rewrite (memcpy_lookup_lt _ _ _ _ _ Enm) by lia. rewrite realloc_arr_lookup by lia. done.
      - rewrite <- H4. apply (rel_slice_frac_ext W cf i w0 Kcf). lia.
      - exists c. rewrite Kcs by lia. rewrite realloc_arr_lookup by lia. done. }
    assert (∀ i, i ≤ w_nw W → cp !! i = Some (off a i)) as Hcp'.
    { intros i Hi. rewrite Kcp by lia. rewrite realloc_arr_lookup by lia. by apply Hcp. }
    assert (∀ i, w_nw W ≤ i → i < w0 → nm !! i = Some None ∧ cs !! i = Some (Some fresh_ctrl) ∧
       slice cf (w_np W * i) (w_np W) = Some (replicate (w_np W) vzero)) as Hfree'.
    { intros i Hi1 Hi2. destruct (Hfree i Hi1 Hi2) as (H1 & H2 & H3). split_and!.
      - rewrite (memcpy_lookup_lt _ _ _ _ _ Enm) by lia. rewrite realloc_arr_lookup by lia. done.
      - rewrite Kcs by lia. rewrite realloc_arr_lookup by lia. done.
      - rewrite <- H3. apply (rel_slice_frac_ext W cf i w0 Kcf). lia. }
    destruct b; simpl; eexists _, _, _; (split; [done|]).
    + split.
      2:{ split_and!; try done; simpl; try lia. intros ->. nil. }
      split; unfold set_well_cpty; simpl; try lia; try done.
      * intros i w cl Hi. destruct (Hwell' i w cl Hi) as (?&?&?&?&?).
        destruct (Hwell i w cl Hi) as (_&_&_&_&?&?&_). done.
      * intros i Hi1 Hi2. destruct (decide (i < w0)) as [Hlt|Hge]; [by apply Hfree'|].
        split_and!.
        -- replace i with (w0 + (i - w0)) by lia.
           rewrite (memcpy_lookup_mid _ _ _ _ _ Enm) by (rewrite replicate_length; lia).
           rewrite lookup_replicate_2; [done|lia].
        -- apply Ncs; [done|lia|lia].
        -- apply slice_replicate. intros k Hk.
           assert (w_np W * w0 ≤ w_np W * i) by (apply Nat.mul_le_mono_l; lia).
           assert (w_np W * (i + 1) ≤ w_np W * nwells) by (apply Nat.mul_le_mono_l; lia).
           replace (w_np W * i + k) with (w_np W * w0 + (w_np W * i + k - w_np W * w0)) by lia.
           rewrite (memcpy_lookup_mid _ _ _ _ _ Ecf)
             by (rewrite replicate_length; unfold n; rewrite Nat.mul_sub_distr_l; lia).
           rewrite lookup_replicate_2; [done|]. unfold n; rewrite Nat.mul_sub_distr_l; lia.
    + split.
      2:{ split_and!; try done; simpl; try lia. intros ->. nil. }
      split; simpl; try lia; try done.
      intros i w cl Hi. destruct (Hwell' i w cl Hi) as (?&?&?&?&?).
      destruct (Hwell i w cl Hi) as (_&_&_&_&?&?&_). done.
  - eexists _, _, _. split; [done|]. split.
    2:{ split_and!; try done; simpl; try lia. intros ->. nil. }
    assert (∀ b k, k < w_np W * w_well_cpty W → (if (b:bool) then realloc_arr (j_V J) (w_np W * nwells) (w_comp_frac W) else w_comp_frac W) !! k = w_comp_frac W !! k) as Kcf.
    { intros b k Hk. apply (cond_realloc_lookup _ _ _ _ (w_np W * w_well_cpty W)); lia. }
    split; simpl; try done; try (apply cond_realloc_length; lia).
    + intros i Hi. rewrite (cond_realloc_lookup _ _ _ _ (S (w_well_cpty W))) by lia. by apply Hcp.
    + intros i w cl Hi. destruct (Hwell i w cl Hi) as (H1 & H2 & H3 & H4 & H5 & H6 & c & H7 & H8).
      pose proof (lookup_lt_Some _ _ _ Hi) as Hlt.
      rewrite !(cond_realloc_lookup _ _ _ _ (w_well_cpty W)) by lia.
      split_and!; try done.
      * rewrite <- H4. apply (rel_slice_frac_ext W _ i (w_well_cpty W)); [auto|lia].
      * eauto.
    + intros i Hi1 Hi2. destruct (Hfree i Hi1 Hi2) as (H1 & H2 & H3).
      rewrite !(cond_realloc_lookup _ _ _ _ (w_well_cpty W)) by lia.
      split_and!; try done.
      rewrite <- H3. apply (rel_slice_frac_ext W _ i (w_well_cpty W)); [auto|lia].
Qed.

Lemma off_bound W a i w cl :
  rel W a → a !! i = Some (w, cl) → off a i + length (aw_perfs w) ≤ w_perf_cpty W.
Proof.
  intros HR Hi. rewrite <- (off_S _ _ _ _ Hi). destruct HR.
  pose proof (lookup_lt_Some _ _ _ Hi). transitivity (off a (w_nw W)); [apply off_mono; lia|done].
Qed.

Lemma reserve_perfs_part_correct nperf W a o :
  rel W a →
  ∃ b W' o', reserve_perfs_part vzero J nperf W o = Some (b, W', o') ∧
    rel W' a ∧ (b = true → nperf ≤ w_perf_cpty W') ∧ w_np W' = w_np W ∧
    w_well_cpty W' = w_well_cpty W ∧ w_perf_cpty W ≤ w_perf_cpty W' ∧ (o = [] → b = true ∧ o' = []).
Proof.
  intros HR. pose proof HR as [Hnw Hle Hlty Hldp Hlnm Hlcs Hlcf Hlcp Hlcl Hlwi Hcp Hperf Hwell Hfree Hfreep].
  unfold reserve_perfs_part. case_decide as Hd.
  2:{ eexists _, _, _. split; [done|]. split; [done|]. split_and!; try done; lia. }
  unfold perfs_allocate.
  destruct (next_alloc o) as [b1 o1] eqn:E1. destruct (next_alloc o1) as [b2 o2] eqn:E2.
  destruct (b1 && b2) eqn:Eb.
  - apply andb_true_iff in Eb as [-> ->].
    unfold initialise_new_perfs. cbn [w_cells w_WI w_perf_cpty].
    set (p0 := w_perf_cpty W) in *.
    destruct (memcpy_is_Some (realloc_arr (j_Z J) nperf (w_cells W)) p0 (replicate (nperf - p0) (-1)%Z)) as [cls Ecl];
      [rewrite realloc_arr_length, replicate_length; lia|].
    destruct (memcpy_is_Some (realloc_arr (j_V J) nperf (w_WI W)) p0 (replicate (nperf - p0) vzero)) as [wi Ewi];
      [rewrite realloc_arr_length, replicate_length; lia|].
    rewrite Ecl, Ewi. simpl. eexists _, _, _. split; [done|].
    pose proof (memcpy_length _ _ _ _ Ecl) as Lcl. pose proof (memcpy_length _ _ _ _ Ewi) as Lwi.
    rewrite realloc_arr_length in Lcl. rewrite realloc_arr_length in Lwi.
    assert (∀ k, k < p0 → cls !! k = w_cells W !! k) as Kcl.
    { intros k Hk. rewrite (memcpy_lookup_lt _ _ _ _ _ Ecl) by lia. apply realloc_arr_lookup; lia. }
    assert (∀ k, k < p0 → wi !! k = w_WI W !! k) as Kwi.
    { intros k Hk. rewrite (memcpy_lookup_lt _ _ _ _ _ Ewi) by lia. apply realloc_arr_lookup; lia. }
    split.
    2:{ split_and!; try done; simpl; try lia. intros ->. nil. }
    split; unfold set_perf_cpty; simpl; try lia; try done.
    + intros i w cl Hi. destruct (Hwell i w cl Hi) as (H1 & H2 & H3 & H4 & H5 & H6 & H7).
      pose proof (off_bound W a i w cl HR Hi). split_and!; try done.
      * rewrite <- H5. apply slice_ext. intros k ? ?. apply Kcl. lia.
      * rewrite <- H6. apply slice_ext. intros k ? ?. apply Kwi. lia.
    + intros k Hk1 Hk2. destruct (decide (k < p0)).
      * rewrite Kwi by done. by apply Hfreep.
      * replace k with (p0 + (k - p0)) by lia.
        rewrite (memcpy_lookup_mid _ _ _ _ _ Ewi) by (rewrite replicate_length; lia).
        rewrite lookup_replicate_2; [done|lia].
  - eexists _, _, _. split; [done|]. split.
    2:{ split_and!; try done; simpl; try lia. intros ->. nil. }
    split; simpl; try done; try (apply cond_realloc_length; lia).
    + intros i w cl Hi. destruct (Hwell i w cl Hi) as (H1 & H2 & H3 & H4 & H5 & H6 & H7).
      pose proof (off_bound W a i w cl HR Hi). split_and!; try done.
      * rewrite <- H5. apply slice_ext. intros k ? ?.
        apply (cond_realloc_lookup _ _ _ _ (w_perf_cpty W)); lia.
      * rewrite <- H6. apply slice_ext. intros k ? ?.
        apply (cond_realloc_lookup _ _ _ _ (w_perf_cpty W)); lia.
    + intros k Hk1 Hk2. rewrite (cond_realloc_lookup _ _ _ _ (w_perf_cpty W)) by lia. by apply Hfreep.
Qed.

Lemma wells_reserve_correct nwells nperf W a o :
  rel W a → w_well_cpty W ≤ nwells → w_perf_cpty W ≤ nperf →
  ∃ b W' o', wells_reserve vzero vminus1 J nwells nperf W o = Some (b, W', o') ∧
    rel W' a ∧ (b = true → nwells ≤ w_well_cpty W' ∧ nperf ≤ w_perf_cpty W') ∧
    w_np W' = w_np W ∧ (o = [] → b = true ∧ o' = []) ∧
    w_well_cpty W ≤ w_well_cpty W' ∧ w_perf_cpty W ≤ w_perf_cpty W'.
Proof.
  intros HR H1 H2. unfold wells_reserve. rewrite decide_True by done.
  destruct (reserve_wells_part_correct nwells W a o HR) as (b & W1 & o1 & -> & HR1 & Hb & Hnp & Hmon & Hpc & Ho).
  simpl. destruct b.
  - destruct (reserve_perfs_part_correct nperf W1 a o1 HR1) as (b & W2 & o2 & -> & HR2 & Hb2 & Hnp2 & Hwc & Hpm & Ho2).
    eexists _, _, _. split; [done|]. split; [done|]. split; [|split; [congruence|split; [naive_solver|lia]]].
    intros ->. rewrite Hwc. split; [by apply Hb|by apply Hb2].
  - eexists _, _, _. split; [done|]. split; [done|]. split; [done|]. split; [done|]. split; [naive_solver|lia].
Qed.

(** ** Public operations *)

Lemma rel_empty np : rel (Wells 0 np [] [] [] [0] [] [] [] [] 0 0) [].
Proof.
  split; simpl; try lia; try done.
  all: intros; try lia.
  destruct i; [done|lia].
Qed.

Lemma create_wells_correct np nwells nperf o W o' :
  create_wells vzero vminus1 J np nwells nperf o = Some (Some W, o') →
  rel W [] ∧ w_np W = np ∧ nwells ≤ w_well_cpty W ∧ nperf ≤ w_perf_cpty W.
Proof.
  unfold create_wells. destruct (next_alloc o) as [[] o1]; [|done].
  destruct (next_alloc o1) as [b2 o2]. destruct (next_alloc o2) as [[] o3]; [|done].
  destruct b2; [|done]. case_decide as Hd.
  - destruct (wells_reserve_correct nwells nperf _ [] o3 (rel_empty np)) as (b & W1 & o4 & E & HR & Hb & Hnp & Ho & _);
      [simpl; lia..|].
    rewrite E. simpl. destruct b.
    + intros [= -> ->]. specialize (Hb eq_refl). done.
    + destruct (destroy_wells W1); done.
  - intros [= <- <-]. split; [apply rel_empty|]. simpl. split; [done|]. lia.
Qed.

Lemma create_wells_total np nwells nperf :
  ∃ W, create_wells vzero vminus1 J np nwells nperf [] = Some (Some W, []).
Proof.
  unfold create_wells. simpl. case_decide as Hd; [|eauto].
  destruct (wells_reserve_correct nwells nperf _ [] [] (rel_empty np)) as (b & W1 & o4 & E & HR & Hb & Hnp & Ho & _);
    [simpl; lia..|].
  rewrite E. simpl. destruct (Ho eq_refl) as [-> ->]. eauto.
Qed.

(** Undefined behaviour in create_wells happens only when the management
    structure cannot be allocated. *)
Lemma create_wells_no_ub np nwells nperf o :
  create_wells vzero vminus1 J np nwells nperf o = None ↔
  ∃ b2 o', o = true :: b2 :: false :: o'.
Proof.
  unfold create_wells. split.
  - destruct o as [|b1 o]; simpl.
    { case_decide; [|done].
      destruct (wells_reserve_correct nwells nperf _ [] [] (rel_empty np)) as (b & W1 & o4 & E & HR & Hb & Hnp & Ho & _);
        [simpl; lia..|]. rewrite E. simpl. destruct (Ho eq_refl) as [-> ->]. done. }
    destruct b1; [|done]. destruct (next_alloc o) as [b2 o2] eqn:E2.
    destruct (next_alloc o2) as [b3 o3] eqn:E3. destruct b3.
    + destruct b2; [|done]. case_decide; [|done].
      destruct (wells_reserve_correct nwells nperf _ [] o3 (rel_empty np)) as (b & W1 & o4 & E & HR & Hb & Hnp & Ho & _);
        [simpl; lia..|]. rewrite E. simpl. destruct b; [done|].
      unfold destroy_wells. destruct HR. rewrite decide_True by done. done.
    + intros _. destruct o as [|b o]; simpl in *; simplify_eq; simpl in *; simplify_eq.
      destruct o2 as [|b o2]; simpl in *; simplify_eq. eauto.
  - intros (b2 & o' & ->). done.
Qed.

Lemma zip_fst_snd {A B} (l : list A) (k : list B) :
  length l = length k → (zip l k).*1 = l ∧ (zip l k).*2 = k.
Proof. intros H. split; [apply fst_zip|apply snd_zip]; lia. Qed.

Lemma add_well_correct ty dp cf cells wi nm W a o :
  rel W a →
  (∀ l, cf = Some l → length l = w_np W) → (∀ l, wi = Some l → length l = length cells) →
  ∃ b W' o', add_well vzero vminus1 J ty dp cf cells wi nm W o = Some (b, W', o') ∧
    w_np W' = w_np W ∧
    (b = false → rel W' a) ∧
    (b = true → w_ctrls W' !! w_nw W = Some (Some fresh_ctrl) ∧
       ∃ nm', (nm' = nm ∨ nm' = None) ∧ (o = [] → nm' = nm) ∧
       rel W' (a ++ [(AWell ty dp (default (replicate (w_np W) vzero) cf)
                  (zip cells (default (replicate (length cells) vzero) wi)) nm' [] (-1), false)])) ∧
    (o = [] → b = true ∧ o' = []) ∧
    (w_well_cpty W ≤ w_well_cpty W' ∧ w_perf_cpty W ≤ w_perf_cpty W') ∧
    (w_nw W < w_well_cpty W → off a (w_nw W) + length cells ≤ w_perf_cpty W →
       b = true ∧ w_well_cpty W' = w_well_cpty W ∧ w_perf_cpty W' = w_perf_cpty W).
Proof.
  intros HR Hcf Hwi. unfold add_well. rewrite (r_cp _ _ HR) by done. simpl.
  assert (∃ b W1 o1,
     (if decide (w_nw W < w_well_cpty W ∧ off a (w_nw W) + length cells ≤ w_perf_cpty W)
       then Some (true, W, o)
       else wells_reserve vzero vminus1 J (alloc_size (w_nw W) 1 (w_well_cpty W))
              (alloc_size (off a (w_nw W)) (length cells) (w_perf_cpty W)) W o) = Some (b, W1, o1) ∧
     rel W1 a ∧ w_np W1 = w_np W ∧
     (b = true → w_nw W < w_well_cpty W1 ∧ off a (w_nw W) + length cells ≤ w_perf_cpty W1) ∧
     (o = [] → b = true ∧ o1 = []) ∧
     (w_well_cpty W ≤ w_well_cpty W1 ∧ w_perf_cpty W ≤ w_perf_cpty W1) ∧
     (w_nw W < w_well_cpty W → off a (w_nw W) + length cells ≤ w_perf_cpty W → b = true ∧ W1 = W))
    as (b & W1 & o1 & -> & HR1 & Hnp & Hb & Ho & Hmon & Hcap).
  { case_decide as Hd.
    - eexists _, _, _. split; [done|]. naive_solver.
    - destruct (alloc_size_ge (w_nw W) 1 (w_well_cpty W)).
      destruct (alloc_size_ge (off a (w_nw W)) (length cells) (w_perf_cpty W)).
      destruct (wells_reserve_correct (alloc_size (w_nw W) 1 (w_well_cpty W))
         (alloc_size (off a (w_nw W)) (length cells) (w_perf_cpty W)) W a o HR) as (b & W1 & o1 & -> & ? & Hbb & ? & ? & ? & ?);
        [done..|].
      eexists _, _, _. split; [done|]. split; [done|]. split; [done|]. split; [|split; [done|split; [done|]]].
      + intros Hbt. specialize (Hbb Hbt). lia.
      + intros. exfalso. apply Hd. done. }
  simpl. pose proof HR1 as [Hnw Hle Hlty Hldp Hlnm Hlcs Hlcf Hlcp Hlcl Hlwi Hcp Hperf Hwell Hfree Hfreep].
  assert (w_nw W = w_nw W1) as Hnweq by (rewrite Hnw; apply (r_nw _ _ HR)).
  rewrite Hnweq in *. rewrite Hcp by done. simpl.
  destruct b; simpl.
  2:{ eexists _, _, _. split; [done|]. split; [done|]. split; [done|]. split; [done|].
      split; [naive_solver|]. split; [done|]. intros H1 H2. destruct (Hcap H1 H2). done. }
  destruct (Hb eq_refl) as [Hwc Hpc].
  destruct (memcpy_is_Some (w_cells W1) (off a (w_nw W1)) cells) as [cls Ecl]; [lia|].
  rewrite Ecl. simpl.
  set (wi' := default (replicate (length cells) vzero) wi).
  assert (length wi' = length cells) as Lwi'.
  { unfold wi'. destruct wi; simpl; [by apply Hwi|apply replicate_length]. }
  assert (∃ wis, (match wi with
           | Some l => if decide (length l = length cells) then memcpy (w_WI W1) (off a (w_nw W1)) l else None
           | None => Some (w_WI W1)
           end) = Some wis ∧ length wis = length (w_WI W1) ∧
           slice wis (off a (w_nw W1)) (length cells) = Some wi' ∧
           (∀ i, i < off a (w_nw W1) → wis !! i = w_WI W1 !! i) ∧
           (∀ i, off a (w_nw W1) + length cells ≤ i → wis !! i = w_WI W1 !! i))
    as (wis & -> & Lwis & Swis & Kwis1 & Kwis2).
  { destruct wi as [l|]; simpl in *.
    - rewrite decide_True by auto. specialize (Hwi l eq_refl).
      destruct (memcpy_is_Some (w_WI W1) (off a (w_nw W1)) l) as [wis E]; [lia|].
      exists wis. split_and!; [done|by apply memcpy_length in E| | |].
      + rewrite <- Hwi. by apply slice_memcpy in E.
      + intros i Hi. by apply (memcpy_lookup_lt _ _ _ _ _ E).
      + intros i Hi. apply (memcpy_lookup_ge _ _ _ _ _ E). lia.
    - exists (w_WI W1). split_and!; try done. unfold wi'. simpl.
      apply slice_replicate. intros i Hi. apply Hfreep; lia. }
  simpl. rewrite upd_Some by lia. simpl. rewrite upd_Some by lia. simpl.
  destruct (Hfree (w_nw W1)) as (Fnm & Fcs & Fcf); [lia|lia|].
  assert (∃ nms o2 nm', (match nm with
          | Some s => let '(b, o) := next_alloc o1 in
                      l ← upd (w_name W1) (w_nw W1) (if (b : bool) then Some s else None); Some (l, o)
          | None => Some (w_name W1, o1)
          end) = Some (nms, o2) ∧ length nms = length (w_name W1) ∧
          (nm' = nm ∨ nm' = None) ∧ (o = [] → nm' = nm ∧ o2 = []) ∧ nms !! w_nw W1 = Some nm' ∧
          (∀ i, i ≠ w_nw W1 → nms !! i = w_name W1 !! i))
    as (nms & o2 & nm' & -> & Lnms & Hnm' & Ho2 & Snms & Knms).
  { destruct nm as [s|].
    - destruct (next_alloc o1) as [b o2] eqn:E. rewrite upd_Some by lia. simpl.
      exists (<[w_nw W1:=if b then Some s else None]> (w_name W1)), o2, (if b then Some s else None).
      split_and!; [done|apply insert_length|destruct b; eauto| | |].
      + intros ->. destruct (Ho eq_refl) as [_ ->]. simpl in E. by simplify_eq.
      + apply list_lookup_insert. lia.
      + intros i Hi. by apply list_lookup_insert_ne.
    - exists (w_name W1), o1, None. split_and!; try done; eauto.
      intros Ho'. split; [done|]. by apply Ho. }
  simpl.
  set (cf' := default (replicate (w_np W1) vzero) cf).
  assert (∃ cfs, (match cf with
           | Some l => if decide (length l = w_np W1)
                       then memcpy (w_comp_frac W1) (w_np W1 * w_nw W1) l else None
           | None => Some (w_comp_frac W1)
           end) = Some cfs ∧ length cfs = length (w_comp_frac W1) ∧
           slice cfs (w_np W1 * w_nw W1) (w_np W1) = Some cf' ∧
           (∀ i, i < w_np W1 * w_nw W1 → cfs !! i = w_comp_frac W1 !! i) ∧
           (∀ i, w_np W1 * (w_nw W1 + 1) ≤ i → cfs !! i = w_comp_frac W1 !! i))
    as (cfs & -> & Lcfs & Scfs & Kcfs1 & Kcfs2).
  { assert (w_np W1 * (w_nw W1 + 1) ≤ w_np W1 * w_well_cpty W1) by (apply Nat.mul_le_mono_l; lia).
    destruct cf as [l|]; simpl in *.
    - specialize (Hcf l eq_refl). rewrite Hnp. rewrite decide_True by auto.
      destruct (memcpy_is_Some (w_comp_frac W1) (w_np W1 * w_nw W1) l) as [cfs E]; [lia|].
      exists cfs. rewrite <- Hnp. split_and!; [done|by apply memcpy_length in E| | |].
      + rewrite Hnp, <- Hcf. rewrite Hnp, <- Hcf in E. by apply slice_memcpy in E.
      + intros i Hi. by apply (memcpy_lookup_lt _ _ _ _ _ E).
      + intros i Hi. apply (memcpy_lookup_ge _ _ _ _ _ E). lia.
    - exists (w_comp_frac W1). split_and!; done. }
  simpl. rewrite upd_Some by lia. simpl.
  eexists _, _, _. split; [done|]. simpl. split; [done|]. split; [done|].
  split; [|split; [intros Hoo; split; [done|by apply Ho2]|split; [done|]]].
  2:{ intros H1 H2. destruct (Hcap H1 H2) as [_ ->]. done. }
  intros _. split; [done|]. exists nm'. split; [done|]. split; [naive_solver|].
  rewrite <- Hnp. fold cf'.
  set (w := AWell ty dp cf' (zip cells wi') nm' [] (-1)).
  assert (length (zip cells wi') = length cells) as Lzip by (rewrite zip_with_length; lia).
  destruct (zip_fst_snd cells wi') as [Zf Zs]; [done|].
  assert ((a ++ [(w, false)]) !! w_nw W1 = Some (w, false)) as Hlast.
  { rewrite lookup_app_r by lia. rewrite Hnw, Nat.sub_diag. done. }
  assert (off (a ++ [(w, false)]) (w_nw W1) = off a (w_nw W1)) as Hoff1 by (apply off_app; lia).
  assert (off (a ++ [(w, false)]) (S (w_nw W1)) = off a (w_nw W1) + length cells) as HoffS.
  { rewrite (off_S _ _ _ _ Hlast), Hoff1. simpl. lia. }
  split; simpl; rewrite ?insert_length; try lia.
  - rewrite app_length. simpl. lia.
  - rewrite (memcpy_length _ _ _ _ Ecl). lia.
  - intros i Hi. destruct (decide (i = S (w_nw W1))) as [->|Hne].
    + rewrite list_lookup_insert by lia. by rewrite HoffS.
    + rewrite list_lookup_insert_ne by lia. rewrite Hcp by lia. rewrite off_app by lia. done.
  - intros i w1 cl1 Hi. destruct (decide (i = w_nw W1)) as [->|Hne].
    + rewrite Hlast in Hi. simplify_eq. simpl. rewrite Hoff1.
      rewrite Lzip, Zf, Zs.
      rewrite !list_lookup_insert by lia. split_and!; try done.
      * by apply slice_memcpy in Ecl.
      * exists fresh_ctrl. split; [done|]. split; simpl; try done; intros; lia.
    + rewrite lookup_app_l in Hi.
      2:{ apply lookup_lt_Some in Hi. rewrite app_length in Hi. simpl in Hi. lia. }
      pose proof (lookup_lt_Some _ _ _ Hi) as Hlt.
      destruct (Hwell i w1 cl1 Hi) as (H1 & H2 & H3 & H4 & H5 & H6 & H7).
      rewrite off_app by lia.
      assert (off a i + length (aw_perfs w1) ≤ off a (w_nw W1)) as Hob.
      { rewrite <- (off_S _ _ _ _ Hi). apply off_mono. lia. }
      rewrite !list_lookup_insert_ne by lia. split_and!; try done.
      * by rewrite Knms.
      * rewrite <- H4. apply slice_ext. intros k Hk1 Hk2. apply Kcfs1.
        assert (w_np W1 * (i + 1) ≤ w_np W1 * w_nw W1) by (apply Nat.mul_le_mono_l; lia). lia.
      * rewrite <- H5. apply slice_ext. intros k Hk1 Hk2.
        apply (memcpy_lookup_lt _ _ _ _ _ Ecl). lia.
      * rewrite <- H6. apply slice_ext. intros k Hk1 Hk2. apply Kwis1. lia.
  - intros i Hi1 Hi2. destruct (Hfree i) as (H1 & H2 & H3); [lia|lia|].
    split_and!; [rewrite Knms by lia; done|done|].
    rewrite <- H3. apply slice_ext. intros k Hk1 Hk2. apply Kcfs2.
    assert (w_np W1 * (w_nw W1 + 1) ≤ w_np W1 * i) by (apply Nat.mul_le_mono_l; lia). lia.
  - intros k Hk1 Hk2. rewrite HoffS in Hk1. rewrite Kwis2 by lia. apply Hfreep; lia.
Qed.

(** Replacing the controls of one well. *)
Lemma rel_set_ctrl W a i w cl c' l' cur' cl' :
  rel W a → a !! i = Some (w, cl) →
  crel (w_np W) c' l' cur' cl' →
  rel (set_ctrl W (<[i:=Some c']> (w_ctrls W)))
    (<[i := (AWell (aw_type w) (aw_depth w) (aw_frac w) (aw_perfs w) (aw_name w) l' cur', cl')]> a).
Proof.
  intros HR Hi Hc. pose proof HR as [Hnw Hle Hlty Hldp Hlnm Hlcs Hlcf Hlcp Hlcl Hlwi Hcp Hperf Hwell Hfree Hfreep].
  pose proof (lookup_lt_Some _ _ _ Hi) as Hlt.
  set (x := (AWell _ _ _ _ _ l' cur', cl')).
  assert (∀ j, off (<[i:=x]> a) j = off a j) as Hoff by (intros; eapply off_insert; done).
  split; unfold set_ctrl; simpl; rewrite ?insert_length, ?Hoff; try done.
  - intros j Hj. rewrite Hoff. by apply Hcp.
  - intros j w1 cl1 Hj. rewrite Hoff. destruct (decide (j = i)) as [->|Hne].
    + rewrite list_lookup_insert in Hj by done. simplify_eq. simpl.
      destruct (Hwell i w cl Hi) as (H1 & H2 & H3 & H4 & H5 & H6 & H7). split_and!; try done.
      exists c'. split; [|done]. apply list_lookup_insert. lia.
    + rewrite list_lookup_insert_ne in Hj by done.
      destruct (Hwell j w1 cl1 Hj) as (H1 & H2 & H3 & H4 & H5 & H6 & c & H7 & H8).
      split_and!; try done. exists c. split; [|done]. by rewrite list_lookup_insert_ne.
  - intros j Hj1 Hj2. rewrite list_lookup_insert_ne by lia. by apply Hfree.
Qed.

Lemma rel_same_ctrl W a i w cl c' :
  rel W a → a !! i = Some (w, cl) →
  crel (w_np W) c' (aw_ctrls w) (aw_current w) cl →
  rel (set_ctrl W (<[i:=Some c']> (w_ctrls W))) a.
Proof.
  intros HR Hi Hc. pose proof (rel_set_ctrl _ _ _ _ _ _ _ _ _ HR Hi Hc) as H.
  rewrite (list_insert_id a) in H; [done|]. rewrite Hi. by destruct w.
Qed.

Lemma append_correct ty tg ds i W a o :
  rel W a → i < length a → (∀ l, ds = Some l → length l = w_np W) →
  ∃ b W' o', append_well_controls vzero vminus1 J ty tg ds i W o = Some (b, W', o') ∧
    w_np W' = w_np W ∧
    (∃ a', spec_step vzero (w_np W) (OAppend ty tg ds i) b a a' ∧ rel W' a') ∧
    (o = [] → b = true ∧ o' = []).
Proof.
  intros HR Hi Hds. pose proof HR as [Hnw Hle Hlty Hldp Hlnm Hlcs Hlcf Hlcp Hlcl Hlwi Hcp Hperf Hwell Hfree Hfreep].
  unfold append_well_controls. rewrite decide_True by lia.
  destruct (lookup_lt_is_Some_2 a i Hi) as [[w cl] Hw].
  destruct (Hwell i w cl Hw) as (_ & _ & _ & _ & _ & _ & c & -> & Hc).
  destruct (ctrl_append_correct ty tg ds (w_np W) c _ _ _ o Hc Hds) as (b & c' & o' & -> & Hf & Ht & Ho & _).
  simpl. rewrite upd_Some by lia. simpl. eexists _, _, _. split; [done|]. simpl.
  split; [done|]. split; [|done]. destruct b.
  - destruct (Ht eq_refl) as (d & Hd1 & Hd2 & Hd3 & Hc'). eexists. split.
    + eapply spec_append_ok; eauto.
    + by eapply rel_set_ctrl.
  - exists a. split; [constructor|]. eapply rel_same_ctrl; eauto.
Qed.

Lemma set_current_correct i k W a w cl :
  rel W a → a !! i = Some (w, cl) → (k < Z.of_nat (length (aw_ctrls w)))%Z →
  ∃ W', set_current_control i k W = Some W' ∧ w_np W' = w_np W ∧
    rel W' (<[i := (AWell (aw_type w) (aw_depth w) (aw_frac w) (aw_perfs w) (aw_name w)
                   (aw_ctrls w) k, cl)]> a).
Proof.
  intros HR Hw Hk. pose proof HR as [Hnw Hle Hlty Hldp Hlnm Hlcs Hlcf Hlcp Hlcl Hlwi Hcp Hperf Hwell Hfree Hfreep].
  pose proof (lookup_lt_Some _ _ _ Hw) as Hi.
  unfold set_current_control. rewrite decide_True by lia.
  destruct (Hwell i w cl Hw) as (_ & _ & _ & _ & _ & _ & c & -> & Hc).
  rewrite decide_True by (rewrite (cr_num _ _ _ _ _ Hc); done).
  rewrite upd_Some by lia. simpl. eexists. split; [done|]. split; [done|].
  eapply rel_set_ctrl; [done..|]. destruct Hc. by split.
Qed.

Lemma clear_correct i W a w cl :
  rel W a → a !! i = Some (w, cl) →
  ∃ W', clear_well_controls i W = Some W' ∧ w_np W' = w_np W ∧
    rel W' (<[i := (AWell (aw_type w) (aw_depth w) (aw_frac w) (aw_perfs w) (aw_name w)
                   [] (aw_current w), true)]> a).
Proof.
  intros HR Hw. pose proof HR as [Hnw Hle Hlty Hldp Hlnm Hlcs Hlcf Hlcp Hlcl Hlwi Hcp Hperf Hwell Hfree Hfreep].
  pose proof (lookup_lt_Some _ _ _ Hw) as Hi.
  unfold clear_well_controls. rewrite decide_True by lia.
  destruct (Hwell i w cl Hw) as (_ & _ & _ & _ & _ & _ & c & -> & Hc).
  rewrite upd_Some by lia. simpl. eexists. split; [done|]. split; [done|].
  eapply rel_set_ctrl; [done..|]. destruct Hc. split; simpl; try done; lia.
Qed.

(** ** The view *)

Lemma mapM_seq_Some {A} (f : nat → option A) n (l : list A) :
  length l = n → (∀ i x, l !! i = Some x → f i = Some x) → mapM f (seq 0 n) = Some l.
Proof.
  intros Hn Hf. apply mapM_Some_2. apply Forall2_lookup. intros i.
  destruct (decide (i < n)) as [Hi|Hi].
  - rewrite lookup_seq_lt by done. simpl.
    destruct (lookup_lt_is_Some_2 l i) as [x Hx]; [lia|]. rewrite Hx.
    constructor. by apply Hf.
  - rewrite lookup_seq_ge by lia. rewrite lookup_ge_None_2 by lia. constructor.
Qed.

Lemma crel_view np c l cur cl : crel np c l cur cl → view_ctrls np c = Some l.
Proof.
  intros [Hnum Hle Hty Htg Hds Hget Hclean Hcur]. unfold view_ctrls.
  apply mapM_seq_Some; [done|]. intros k x Hk. destruct (Hget k x Hk) as (H1 & H2 & H3).
  unfold view_ctrl. rewrite H1, H2, H3. simpl. by destruct x.
Qed.

Lemma rel_view_well W a i w cl :
  rel W a → a !! i = Some (w, cl) → view_well W i = Some w.
Proof.
  intros HR Hi. pose proof (lookup_lt_Some _ _ _ Hi) as Hlt.
  destruct (r_well _ _ HR i w cl Hi) as (H1 & H2 & H3 & H4 & H5 & H6 & c & H7 & H8).
  unfold view_well. rewrite H1, H2, H3, H4. simpl.
  rewrite !(r_cp _ _ HR) by (rewrite (r_nw _ _ HR); lia). simpl.
  rewrite (off_S _ _ _ _ Hi).
  replace (off a i + length (aw_perfs w) - off a i) with (length (aw_perfs w)) by lia.
  rewrite H5, H6. simpl. rewrite H7. simpl. rewrite (crel_view _ _ _ _ _ H8). simpl.
  rewrite decide_True by lia. rewrite (cr_cur _ _ _ _ _ H8).
  f_equal. destruct w; simpl. f_equal. apply stdpp.list.zip_fst_snd.
Qed.

Lemma rel_view W a : rel W a → view W = Some (a.*1).
Proof.
  intros HR. unfold view. apply mapM_seq_Some.
  - by rewrite fmap_length, (r_nw _ _ HR).
  - intros i x Hi. rewrite list_lookup_fmap in Hi.
    destruct (a !! i) as [[w cl]|] eqn:E; [|done]. simpl in Hi. simplify_eq.
    by eapply rel_view_well.
Qed.
(** ** One step, histories *)

Lemma step_correct p W a o :
  rel W a → op_valid (w_np W) a.*1 p →
  ∃ b W' o' a', step vzero vminus1 J p W o = Some (b, W', o') ∧ w_np W' = w_np W ∧
    spec_step vzero (w_np W) p b a a' ∧ rel W' a' ∧
    (b = false → a' = a) ∧
    (o = [] → b = true ∧ o' = [] ∧ (op_explicit p → a'.*1 = spec_apply vzero (w_np W) p a.*1)) ∧
    w_well_cpty W ≤ w_well_cpty W' ∧ w_perf_cpty W ≤ w_perf_cpty W'.
Proof.
  intros HR Hv. destruct p as [ty dp cf cells wi nm|ty tg ds i|i k|i]; simpl in *.
  - destruct Hv as [Hcf Hwi].
    destruct (add_well_correct ty dp cf cells wi nm W a o HR Hcf Hwi)
      as (b & W' & o' & E & Hnp & Hf & Ht & Ho & Hmon & _).
    destruct b.
    + destruct (Ht eq_refl) as (Hfr & nm' & Hnm & Hnm2 & HR'). do 4 eexists. split; [done|].
      split; [done|]. split; [by constructor|]. split; [done|]. split; [done|].
      split; [|done]. intros Ho'. split_and!; try apply Ho; try done. intros _.
      rewrite fmap_app. simpl. rewrite Hnm2 by done. done.
    + do 4 eexists. split; [done|]. split; [done|]. split; [constructor|].
      split; [by apply Hf|]. split; [done|]. split; [|done]. intros Ho'. by destruct (Ho Ho').
  - destruct Hv as [Hi Hds]. rewrite fmap_length in Hi.
    pose proof HR as [Hnw Hle Hlty Hldp Hlnm Hlcs Hlcf Hlcp Hlcl Hlwi Hcp Hperf Hwell Hfree Hfreep].
    unfold append_well_controls. rewrite decide_True by lia.
    destruct (lookup_lt_is_Some_2 a i Hi) as [[w cl] Hw].
    destruct (Hwell i w cl Hw) as (_ & _ & _ & _ & _ & _ & c & -> & Hc).
    destruct (ctrl_append_correct ty tg ds (w_np W) c _ _ _ o Hc Hds) as (b & c' & o' & -> & Hf & Ht & Ho & _).
    simpl. rewrite upd_Some by lia. simpl. destruct b.
    + destruct (Ht eq_refl) as (d & Hd1 & Hd2 & Hd3 & Hc').
      do 4 eexists. split; [done|]. simpl.
      split; [done|]. split; [eapply spec_append_ok; eauto|]. split; [by eapply rel_set_ctrl|].
      split; [done|]. split; [|done]. intros Ho'. split_and!; try by apply Ho. intros [x ->].
      rewrite (Hd2 x eq_refl). apply list_eq. intros j. rewrite list_lookup_fmap.
      destruct (decide (j = i)) as [->|Hne].
      * rewrite list_lookup_insert by done. rewrite list_lookup_alter, list_lookup_fmap, Hw. done.
      * rewrite list_lookup_insert_ne by done. rewrite list_lookup_alter_ne by done.
        by rewrite list_lookup_fmap.
    + do 4 eexists. split; [done|]. simpl. split; [done|]. split; [constructor|].
      split; [eapply rel_same_ctrl; eauto|]. split; [done|]. split; [|done].
      intros Ho'. by destruct (Ho Ho').
  - destruct Hv as (w & Hw & Hk). rewrite list_lookup_fmap in Hw.
    destruct (a !! i) as [[w1 cl]|] eqn:Ea; [|done]. simpl in Hw. simplify_eq.
    pose proof (lookup_lt_Some _ _ _ Ea) as Hi.
    destruct (set_current_correct i k W a w cl HR Ea Hk) as (W' & E & Hnp & HR').
    rewrite E. simpl. do 4 eexists. split; [done|]. split; [done|]. split; [by econstructor|].
    split; [done|]. split; [done|]. split.
    + intros ->. split; [done|]. split; [done|]. intros _. apply list_eq. intros j.
      rewrite list_lookup_fmap. destruct (decide (j = i)) as [->|Hne].
      * rewrite list_lookup_insert by done. rewrite list_lookup_alter, list_lookup_fmap, Ea. done.
      * rewrite list_lookup_insert_ne by done. rewrite list_lookup_alter_ne by done.
        by rewrite list_lookup_fmap.
    + unfold set_current_control in E. repeat case_match; simplify_eq; [|done..].
      destruct (upd _ _ _); simpl in E; simplify_eq. simpl. lia.
  - rewrite fmap_length in Hv. destruct (lookup_lt_is_Some_2 a i Hv) as [[w cl] Ea].
    destruct (clear_correct i W a w cl HR Ea) as (W' & E & Hnp & HR').
    rewrite E. simpl. do 4 eexists. split; [done|]. split; [done|]. split; [by econstructor|].
    split; [done|]. split; [done|]. split.
    + intros ->. split; [done|]. split; [done|]. intros _. apply list_eq. intros j.
      rewrite list_lookup_fmap. destruct (decide (j = i)) as [->|Hne].
      * rewrite list_lookup_insert by done. rewrite list_lookup_alter, list_lookup_fmap, Ea. done.
      * rewrite list_lookup_insert_ne by done. rewrite list_lookup_alter_ne by done.
        by rewrite list_lookup_fmap.
    + unfold clear_well_controls in E. repeat case_match; simplify_eq; try done; try lia.
      destruct (upd _ _ _); simpl in E; simplify_eq. simpl. lia.
Qed.

Lemma reachable_rel np nwells nperf W h :
  reachable vzero vminus1 J np nwells nperf W h →
  ∃ a, spec_run vzero np h a ∧ rel W a ∧ w_np W = np ∧
    nwells ≤ w_well_cpty W ∧ nperf ≤ w_perf_cpty W.
Proof.
  induction 1 as [W o o' E|W h av p b W' o o' _ IH Hview Hv E].
  - destruct (create_wells_correct _ _ _ _ _ _ E) as (HR & Hnp & H1 & H2).
    exists []. split; [constructor|done].
  - destruct IH as (a & Hrun & HR & Hnp & H1 & H2).
    rewrite (rel_view _ _ HR) in Hview. simplify_eq.
    destruct (step_correct p W a o HR Hv) as (b' & W2 & o2 & a' & E2 & Hnp2 & Hst & HR' & _ & _ & Hm1 & Hm2).
    rewrite E2 in E. simplify_eq. exists a'. split; [by econstructor|]. split; [done|].
    split; [done|]. lia.
Qed.

Lemma run_correct ops W a :
  rel W a → ops_valid vzero (w_np W) ops a.*1 → Forall op_explicit ops →
  ∃ W' a', run vzero vminus1 J ops W = Some W' ∧ rel W' a' ∧ w_np W' = w_np W ∧
    a'.*1 = foldl (λ l p, spec_apply vzero (w_np W) p l) a.*1 ops.
Proof.
  revert W a. induction ops as [|p ops IH]; intros W a HR Hv Hex; simpl in *.
  - by exists W, a.
  - destruct Hv as [Hp Hv]. apply Forall_cons_1 in Hex as [Hex1 Hex2].
    destruct (step_correct p W a [] HR Hp) as (b' & W2 & o2 & a' & E2 & Hnp2 & Hst & HR' & _ & Ho & _).
    destruct (Ho eq_refl) as (-> & -> & Hsp). rewrite E2. simpl.
    destruct (IH W2 a' HR') as (W' & a2 & E & HR2 & Hn & Hf); [|done|].
    + rewrite Hnp2, (Hsp Hex1). done.
    + exists W', a2. rewrite E. split; [done|]. split; [done|]. split; [congruence|].
      rewrite Hf, Hnp2, (Hsp Hex1). done.
Qed.

Lemma off_sum a : off a (length a) = sum_list_with (λ w, length (aw_perfs w)) a.*1.
Proof.
  unfold off. rewrite firstn_all. induction a as [|x a IH]; simpl; [done|].
  unfold fmap in IH. simpl in *. rewrite <- IH. done.
Qed.

Lemma add_in_capacity np nwells nperf W h (a : list awell) ty dp cf cells wi nm o :
  reachable vzero vminus1 J np nwells nperf W h → view W = Some a →
  op_valid np a (OAdd ty dp cf cells wi nm) →
  length a < nwells → sum_list_with (λ w, length (aw_perfs w)) a + length cells ≤ nperf →
  ∃ W' o', step vzero vminus1 J (OAdd ty dp cf cells wi nm) W o = Some (true, W', o') ∧
    w_well_cpty W' = w_well_cpty W ∧ w_perf_cpty W' = w_perf_cpty W.
Proof.
  intros Hr Hview [Hv1 Hv2] Hlen Hp.
  destruct (reachable_rel _ _ _ _ _ Hr) as (a0 & _ & HR & Hnp & H1 & H2).
  rewrite (rel_view _ _ HR) in Hview. simplify_eq. rewrite fmap_length in Hlen.
  destruct (add_well_correct ty dp cf cells wi nm W a0 o HR Hv1 Hv2)
      as (b & W' & o' & E & _ & Hf & Ht & Ho & Hmon & Hcap).
  rewrite (r_nw _ _ HR), off_sum in Hcap.
  destruct Hcap as (-> & Hc); [lia|lia|]. simpl. eauto.
Qed.

(** ** Cloning *)

Definition set_actrls (w : awell) l cur : awell :=
  AWell (aw_type w) (aw_depth w) (aw_frac w) (aw_perfs w) (aw_name w) l cur.

Lemma clone_ctrls_correct n k w src l cur cls R a x cl c o :
  rel R a → a !! w = Some (x, cl) → w_ctrls R !! w = Some (Some c) →
  c_num c + n ≤ c_cpty c →
  crel (w_np R) src l cur cls → k + n = length l →
  ∃ R', clone_ctrls vzero vminus1 J n k (w_np R) w src R o = Some (R', o) ∧ w_np R' = w_np R ∧
    rel R' (<[w := (set_actrls x (aw_ctrls x ++ drop k l) (aw_current x), cl)]> a) ∧
    w_well_cpty R' = w_well_cpty R ∧ w_perf_cpty R' = w_perf_cpty R.
Proof.
  revert k R a x c. induction n as [|n IH]; intros k R a x c HR Hw Hc Hcap Hsrc Hk; simpl.
  - exists R. rewrite drop_ge by lia. rewrite app_nil_r. split; [done|]. split; [done|].
    split; [|done]. rewrite list_insert_id; [done|]. rewrite Hw. by destruct x.
  - destruct (lookup_lt_is_Some_2 l k) as [y Hy]; [lia|].
    destruct (cr_get _ _ _ _ _ Hsrc k y Hy) as (H1 & H2 & H3).
    rewrite H1, H2. simpl. rewrite H3. simpl.
    pose proof (lookup_lt_Some _ _ _ Hw) as Hlt.
    pose proof HR as [Hnw Hle Hlty Hldp Hlnm Hlcs Hlcf Hlcp Hlcl Hlwi Hcp Hperf Hwell Hfree Hfreep].
    unfold append_well_controls. rewrite decide_True by lia. rewrite Hc.
    destruct (Hwell w x cl Hw) as (_ & _ & _ & _ & _ & _ & c1 & Hc1 & Hcr).
    rewrite Hc in Hc1. simplify_eq.
    destruct (ctrl_append_correct (ac_type y) (ac_target y) (Some (ac_distr y)) (w_np R) c1 _ _ _ o Hcr)
      as (b & c' & o' & -> & Hf & Ht & Ho & Hcp').
    { intros z [= <-]. by apply slice_length in H3. }
    destruct Hcp' as (-> & -> & Hcc); [lia|].
    destruct (Ht eq_refl) as (d & Hd1 & Hd2 & Hd3 & Hc'). rewrite (Hd2 _ eq_refl) in Hc'.
    simpl. rewrite upd_Some by lia. simpl.
    pose proof (rel_set_ctrl _ _ _ _ _ _ _ _ _ HR Hw Hc') as HR'.
    destruct (IH (S k) _ _ (set_actrls x (aw_ctrls x ++ [y]) (aw_current x)) c' HR') as (R' & E & Hn & HR2 & Hc1' & Hc2').
    + rewrite list_lookup_insert by done. unfold set_actrls. by destruct y.
    + simpl. apply list_lookup_insert. lia.
    + rewrite Hcc. rewrite (cr_num _ _ _ _ _ Hc'), app_length. simpl.
      rewrite (cr_num _ _ _ _ _ Hcr) in Hcap. lia.
    + done.
    + lia.
    + simpl in E. exists R'. rewrite E. split; [done|]. split; [done|]. split; [|done].
      rewrite list_insert_insert in HR2. unfold set_actrls in *. simpl in *.
      rewrite <- app_assoc in HR2. simpl in HR2.
      rewrite (drop_S l y k) by done. done.
Qed.

Lemma clone_loop_correct n w W a R b o :
  rel W a → rel R b → w_np R = w_np W → w + n = w_nw W → w = length b →
  Forall2 equal_but_name (take w a).*1 b.*1 →
  off b w = off a w →
  w_nw W ≤ w_well_cpty R → off a (w_nw W) ≤ w_perf_cpty R →
  (∀ i x cl, a !! i = Some (x, cl) → aw_current x < Z.of_nat (length (aw_ctrls x)))%Z →
  ∃ ok R' o', clone_loop vzero vminus1 J n w (off a w) W R o = Some (ok, R', o') ∧
    (∃ b', rel R' b' ∧ (ok = true → Forall2 equal_but_name a.*1 b'.*1 ∧ (o = [] → b.*1 = (take w a).*1 → b'.*1 = a.*1))) ∧
    (o = [] → ok = true ∧ o' = []).
Proof.
  revert w R b o. induction n as [|n IH]; intros w R b o HW HR Hnp Hn Hw Hal Hoff Hwc Hpc Hcur; cbn [clone_loop].
  - eexists _, _, _. split; [done|]. split; [|done]. exists b. split; [done|]. intros _.
    rewrite (take_ge a) in * by (rewrite <- (r_nw _ _ HW); lia). split; [done|]. by intros _ ->.
  - destruct (lookup_lt_is_Some_2 a w) as [[x cl] Hx]; [rewrite <- (r_nw _ _ HW); lia|].
    destruct (r_well _ _ HW _ _ _ Hx) as (H1 & H2 & H3 & H4 & H5 & H6 & src & H7 & H8).
    rewrite (r_cp _ _ HW (S w)) by lia. simpl. rewrite (off_S _ _ _ _ Hx).
    rewrite decide_True by lia.
    replace (off a w + length (aw_perfs x) - off a w) with (length (aw_perfs x)) by lia.
    rewrite H5, H6. simpl. rewrite (Nat.mul_comm w). rewrite H4, H1, H2, H3. simpl.
    destruct (add_well_correct (aw_type x) (aw_depth x) (Some (aw_frac x)) ((aw_perfs x).*1)
       (Some (aw_perfs x).*2) (aw_name x) R b o HR) as (ok & R1 & o1 & -> & Hnp1 & _ & Ht & Ho & Hmon & Hcap).
    { intros l [= <-]. rewrite Hnp. by apply slice_length in H4. }
    { intros l [= <-]. by rewrite !fmap_length. }
    destruct Hcap as (-> & Hc1 & Hc2).
    { rewrite (r_nw _ _ HR). lia. }
    { rewrite (r_nw _ _ HR), <- Hw, Hoff, fmap_length, <- (off_S _ _ _ _ Hx).
      etrans; [|exact Hpc]. apply off_mono. lia. }
    simpl. rewrite H7.
    destruct (Ht eq_refl) as (Hfr & nm' & Hnm1 & Hnm2 & HR1). simpl in HR1.
    rewrite stdpp.list.zip_fst_snd in HR1.
    set (y := AWell (aw_type x) (aw_depth x) (aw_frac x) (aw_perfs x) nm' [] (-1)) in *.
    assert ((b ++ [(y, false)]) !! w = Some (y, false)) as Hy.
    { rewrite lookup_app_r by lia. by rewrite Hw, Nat.sub_diag. }
    destruct (r_well _ _ HR1 _ _ _ Hy) as (_ & _ & _ & _ & _ & _ & dst & H9 & H10).
    rewrite (r_nw _ _ HR), <- Hw in Hfr. rewrite Hfr in H9. injection H9 as <-. rewrite Hfr.
    pose proof (lookup_lt_Some _ _ _ Hfr) as Hlt9.
    rewrite <- Hnp, <- Hnp1.
    destruct (reserve_ctrl (w_np R1) fresh_ctrl _ _ _ (c_num src) o1 H10) as (ok & c' & o2 & -> & Hc' & Hct & _ & Ho2);
      [simpl; lia|].
    simpl. rewrite upd_Some by done. simpl.
    pose proof (rel_same_ctrl _ _ _ _ _ _ HR1 Hy Hc') as HR2.
    destruct ok; simpl.
    2:{ eexists _, _, _. split; [done|]. split; [by eexists|]. intros Ho'.
        destruct (Ho Ho') as [_ ->]. by destruct (Ho2 eq_refl). }
    specialize (Hct eq_refl).
    rewrite <- Hnp, <- Hnp1 in H8.
    destruct (clone_ctrls_correct (c_num src) 0 w src (aw_ctrls x) (aw_current x) cl _ _ _ _ c' o2 HR2 Hy) as (R3 & E3 & Hnp3 & HR3 & Hw3 & Hp3).
    { simpl. apply list_lookup_insert. done. }
    { rewrite Hct, (cr_num _ _ _ _ _ Hc'). simpl. lia. }
    { exact H8. }
    { rewrite (cr_num _ _ _ _ _ H8). done. }
    simpl in E3, Hnp3, Hw3, Hp3. rewrite E3. simpl. rewrite drop_0 in HR3. simpl in HR3.
    pose proof (lookup_lt_Some _ _ _ Hy) as Hlty'.
    destruct (set_current_correct w (c_current src) _ _ _ _ HR3 (list_lookup_insert _ _ _ Hlty'))
      as (R4 & E4 & Hnp4 & HR4).
    { simpl. rewrite (cr_cur _ _ _ _ _ H8). by eapply Hcur. }
    rewrite E4. simpl. rewrite list_insert_insert in HR4. simpl in HR4.
    rewrite (cr_cur _ _ _ _ _ H8) in HR4.
    assert (w_well_cpty R4 = w_well_cpty R3 ∧ w_perf_cpty R4 = w_perf_cpty R3) as [Hw4 Hp4].
    { unfold set_current_control in E4. repeat case_match; simplify_eq; try done.
      destruct (upd _ _ _); simpl in E4; simplify_eq. done. }
    set (z := AWell (aw_type x) (aw_depth x) (aw_frac x) (aw_perfs x) nm' (aw_ctrls x) (aw_current x)) in *.
    assert (<[w:=(z, false)]> (b ++ [(y, false)]) = b ++ [(z, false)]) as Hins.
    { rewrite insert_app_r_alt by lia. by rewrite Hw, Nat.sub_diag. }
    rewrite Hins in HR4.
    destruct (IH (S w) R4 (b ++ [(z, false)]) o2 HW HR4) as (ok & R' & o' & E & (b' & HRb & Hb') & Ho').
    + congruence.
    + lia.
    + rewrite app_length. simpl. lia.
    + rewrite (take_S_r _ _ _ Hx), !fmap_app. apply Forall2_app; [done|]. simpl.
      constructor; [|done]. exists nm'. done.
    + rewrite (off_S _ _ _ _ Hx). assert ((b ++ [(z, false)]) !! w = Some (z, false)) as Hz.
      { rewrite lookup_app_r by lia. by rewrite Hw, Nat.sub_diag. }
      rewrite (off_S _ _ _ _ Hz). rewrite off_app by lia. simpl. lia.
    + lia.
    + lia.
    + done.
    + rewrite (off_S _ _ _ _ Hx) in E. rewrite E. eexists _, _, _. split; [done|]. split.
      * exists b'. split; [done|]. intros Hok. destruct (Hb' Hok) as [Hb1 Hb2]. split; [done|].
        intros Hoe Hbe. destruct (Ho Hoe) as [_ ->]. destruct (Ho2 eq_refl) as [_ ->].
        apply Hb2; [done|]. rewrite (take_S_r _ _ _ Hx), !fmap_app, Hbe. simpl.
        do 2 f_equal. unfold z. rewrite (Hnm2 Hoe). by destruct x.
      * intros Hoe. destruct (Ho Hoe) as [_ ->]. destruct (Ho2 eq_refl) as [_ ->]. by apply Ho'.
Qed.

Lemma clone_wells_correct W a o :
  rel W a →
  (∀ i x cl, a !! i = Some (x, cl) → aw_current x < Z.of_nat (length (aw_ctrls x)))%Z →
  (∀ b2 o', o ≠ true :: b2 :: false :: o') →
  ∃ mR o', clone_wells vzero vminus1 J W o = Some (mR, o') ∧
    (∀ R, mR = Some R → ∃ b, rel R b ∧ Forall2 equal_but_name a.*1 b.*1 ∧ (o = [] → b.*1 = a.*1)) ∧
    (o = [] → is_Some mR).
Proof.
  intros HW Hcur Hno. unfold clone_wells. rewrite (r_cp _ _ HW (w_nw W)) by lia. simpl.
  destruct (create_wells vzero vminus1 J (w_np W) (w_nw W) (off a (w_nw W)) o) as [[mR o1]|] eqn:E.
  2:{ apply create_wells_no_ub in E as (b2 & o' & ->). by edestruct Hno. }
  simpl. destruct mR as [R|].
  2:{ eexists _, _. split; [done|]. split; [done|]. intros ->.
      destruct (create_wells_total (w_np W) (w_nw W) (off a (w_nw W))). simplify_eq. }
  assert (o = [] → o1 = []) as Hoo.
  { intros ->. destruct (create_wells_total (w_np W) (w_nw W) (off a (w_nw W))). simplify_eq. done. }
  destruct (create_wells_correct _ _ _ _ _ _ E) as (HR & Hnp & H1 & H2).
  rewrite (r_cp _ _ HW 0) by lia. simpl.
  destruct (clone_loop_correct (w_nw W) 0 W a R [] o1) as (ok & R' & o' & E' & (b' & HRb & Hb) & Ho).
  1-10: first [done | by constructor].
  simpl in E'. rewrite E'. simpl. destruct ok.
  - eexists _, _. split; [done|]. split; [|done]. intros ? [= <-]. exists b'.
    destruct (Hb eq_refl) as [Hb1 Hb2]. split; [done|]. split; [done|]. intros Hoe.
    apply Hb2; [auto|done].
  - unfold destroy_wells. destruct HRb. rewrite decide_True by done. simpl.
    eexists _, _. split; [done|]. split; [done|]. intros Hoe. by destruct (Ho (Hoo Hoe)).
Qed.
End proof.
