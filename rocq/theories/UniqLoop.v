(** The loops over pillars and columns of finduniquepoints. *)
From Verif Require Import Base LoopModel LoopProof UniqModel UniqSpec UniqProof UniqFind.
Unset Default Proof Using.

Lemma take_seq0 q n : q ≤ n → take q (seq 0 n) = seq 0 q.
Proof. intros H. replace n with (q + (n - q)) by lia. rewrite seq_app. rewrite take_app_le by (by rewrite seq_length). apply take_ge. by rewrite seq_length. Qed.

Section loop.
Context {V : Type} (lt : V → V → Prop) `{!RelDecision lt} (shift : V → V) (qsort : list V → list V) (interp : list V → V → V * V).
Hypothesis laws : depth_laws lt shift.
Hypothesis Hsort : sorts lt qsort.
Variables (junk : V) (nx ny nz : nat) (coord zcorn : list V) (actnum : list Z).
Hypothesis Hin : input_sizes nx ny nz coord zcorn actnum.
Notation np := ((nx + 1) * (ny + 1)).
Notation pts := (pts lt shift qsort nx ny nz zcorn actnum).
Notation active := (active nx nz actnum).
Notation depth := (depth nx nz zcorn).

Definition tri (c : list V) (z : V) : list V := [(interp c z).1; (interp c z).2; z].
Definition crd (q : nat) : list V := default [] (slice coord (6 * q) 6).
Lemma crd_ok q : q < np → slice coord (6 * q) 6 = Some (crd q).
Proof. intros Hq. unfold crd. rewrite slice_Some; [done|]. rewrite (is_coord _ _ _ _ _ _ Hin). lia. Qed.

Lemma put_nodes_ok (L zlist : list V) zout cpos c don rest : slice coord cpos 6 = Some c → (∀ k, k < length L → zlist !! (zout + k) = L !! k) → 3 * length L ≤ length rest →
  put_nodes interp (length L) zout zlist coord cpos (don ++ rest, length don) = Some (don ++ concat (tri c <$> L) ++ drop (3 * length L) rest, length don + 3 * length L).
Proof.
  intros Hc HL Hr. unfold put_nodes.
  assert (Hlen : ∀ k, k ≤ length L → length (concat (tri c <$> take k L)) = 3 * k).
  { intros k Hk. rewrite <- (take_length_le L k Hk) at 2. clear. induction (take k L) as [|x l IH]; [done|]. cbn [fmap list_fmap concat length]. rewrite app_length. cbn [fmap list_fmap] in IH. rewrite IH. cbn. lia. }
  match goal with |- for_loop _ _ ?f _ = _ => destruct (for_loop_inv (λ k s, s = (don ++ concat (tri c <$> take k L) ++ drop (3 * k) rest, length don + 3 * k)) (length L) 0 f (don ++ rest, length don)) as (s' & E & Hs') end.
  - rewrite take_0, drop_0, Nat.mul_0_r, Nat.add_0_r. done.
  - intros k s Hk ->. destruct (lookup_lt_is_Some_2 L k) as [z Hz]; [lia|]. rewrite HL by lia. rewrite Hz. cbn [mbind option_bind].
    set (D := don ++ concat (tri c <$> take k L)). assert (HD : length D = length don + 3 * k) by (unfold D; rewrite app_length, Hlen by lia; done).
    assert (Hrest : ∃ a b e r, drop (3 * k) rest = a :: b :: e :: r ∧ r = drop (3 * (k + 1)) rest).
    { destruct (drop (3 * k) rest) as [|a [|b [|e r]]] eqn:Ed; try (apply (f_equal length) in Ed; rewrite drop_length in Ed; cbn in Ed; lia).
      exists a, b, e, r. split; [done|]. replace (3 * (k + 1)) with (3 * k + 3) by lia. rewrite <- drop_drop, Ed. done. }
    destruct Hrest as (a & b & e & r & Er & Er'). rewrite app_assoc. fold D. rewrite Er. rewrite <- HD.
    rewrite upd_Some by (rewrite app_length; cbn; lia). cbn [mbind option_bind]. rewrite Hc. cbn [mbind option_bind].
    destruct (interp c z) as [x y] eqn:Ei. rewrite upd_Some by (rewrite insert_length, app_length; cbn; lia). cbn [mbind option_bind].
    rewrite upd_Some by (rewrite !insert_length, app_length; cbn; lia). cbn [mbind option_bind]. eexists. split; [done|].
    rewrite !(insert_app_r_alt D) by lia. replace (length D + 2 - length D) with 2 by lia. replace (length D + 1 - length D) with 1 by lia. rewrite Nat.sub_diag. cbn [insert list_insert].
    f_equal; [|lia]. rewrite <- Er'. rewrite Nat.add_1_r, (take_S_r _ _ _ Hz), fmap_app, concat_app. cbn [fmap list_fmap concat]. unfold tri at 2. rewrite Ei. cbn [fst snd]. unfold D. rewrite <- !app_assoc. done.
  - rewrite E, Hs'. cbn [Nat.add]. rewrite take_ge by lia. done.
Qed.

Notation PP q := (pts <$> seq 0 q).
Definition tris (q : nat) : list (list V) := concat ((λ q', tri (crd q') <$> pts q') <$> seq 0 q).
Record pinv (q : nat) (s : pstate) : Prop := {
  pi_zlist : ∃ rest, p_zlist s = concat (PP q) ++ rest;
  pi_zlen : length (p_zlist s) = 8 * (nx + 1) * (ny + 1) * nz;
  pi_zout : p_zout s = length (concat (PP q));
  pi_zptr : ∀ q', q' ≤ q → p_zptr s !! q' = Some (length (concat (PP q')));
  pi_zplen : length (p_zptr s) = np + 1;
  pi_pos : p_pos s = q + 1;
  pi_nodes : ∃ rest, p_nodes s = concat (tris q) ++ rest;
  pi_nlen : length (p_nodes s) = 3 * 8 * (nx * ny * nz);
  pi_pt : p_pt s = 3 * length (concat (PP q));
  pi_coord : p_coord s = 6 * q }.

Lemma concat_weight q : q ≤ np → length (concat (PP q)) ≤ 2 * nz * sum_list_with (weight nx ny) (seq 0 q).
Proof.
  intros Hq. induction q as [|q IH]; [cbn; lia|]. rewrite seq_S, fmap_app, concat_app, app_length, sum_list_with_app. cbn [fmap list_fmap concat sum_list_with]. rewrite app_nil_r. cbn [Nat.add].
  assert (Hl : length (pts q) ≤ 2 * nz * weight nx ny q) by (apply (pts_length lt shift qsort laws Hsort nx ny nz coord zcorn actnum Hin); lia). specialize (IH ltac:(lia)). nia.
Qed.
Lemma concat_eight q : q ≤ np → length (concat (PP q)) ≤ 8 * nz * q.
Proof.
  intros Hq. induction q as [|q IH]; [cbn; lia|]. rewrite seq_S, fmap_app, concat_app, app_length. cbn [fmap list_fmap concat]. rewrite app_nil_r. cbn [Nat.add].
  destruct (pillar_split nx ny q) as (I & J & HI & HJ & E); [lia|]. destruct (raw_ok nx ny nz coord zcorn actnum Hin I J HI HJ) as (_ & Hl & _). rewrite <- E in Hl.
  assert (length (pts q) ≤ 8 * nz). { unfold UniqFind.pts. etransitivity; [apply thin_short|]. by rewrite (raw_sorted_length lt qsort Hsort). } specialize (IH ltac:(lia)). nia.
Qed.
Lemma tris_length q : length (concat (tris q)) = 3 * length (concat (PP q)).
Proof.
  assert (G : ∀ c (l : list V), length (concat (tri c <$> l)) = 3 * length l). { intros c l. induction l as [|x l IH]; [done|]. cbn [fmap list_fmap concat length]. rewrite app_length. cbn [fmap list_fmap] in IH. rewrite IH. cbn. lia. }
  unfold tris. induction q as [|q IH]; [done|]. rewrite seq_S, !fmap_app, !concat_app, !app_length. cbn [fmap list_fmap concat Nat.add]. rewrite !app_nil_r. rewrite IH, G. lia.
Qed.

Lemma one_pillar_ok I J s : I ≤ nx → J ≤ ny → pinv (I + (nx + 1) * J) s → ∃ s', one_pillar lt shift qsort interp nx ny nz coord zcorn actnum I J s = Some s' ∧ pinv (I + (nx + 1) * J + 1) s'.
Proof.
  intros HI HJ [[rest Hz] Hzl Hzo Hzp Hzpl Hpos [nrest Hn] Hnl Hpt Hco]. destruct (raw_ok nx ny nz coord zcorn actnum Hin I J HI HJ) as (Eraw & Hrl & _). set (q := I + (nx + 1) * J) in *.
  assert (Hq : q < np) by (unfold q; nia). destruct (Hsort (raw nx ny nz zcorn actnum q)) as [Hperm _].
  set (R := raw nx ny nz zcorn actnum q) in *. set (C := concat (PP q)) in *. assert (HC : length C ≤ 8 * nz * q) by (apply concat_eight; lia).
  assert (Hrest : length rest = 8 * (nx + 1) * (ny + 1) * nz - length C) by (rewrite Hz, app_length in Hzl; lia).
  assert (Hroom : length R ≤ length rest) by nia.
  unfold one_pillar, create_sorted_list. rewrite Eraw. cbn [mbind option_bind]. rewrite Hz, Hzo.
  rewrite memcpy_Some by (rewrite app_length; lia). rewrite take_app. rewrite drop_app_ge by lia. cbn [mbind option_bind]. replace (length C + length R - length C) with (length R) by lia.
  assert (HlS : length (qsort R) = length R) by (by rewrite Hperm).
  rewrite memcpy_Some by (rewrite !app_length, drop_length; lia). rewrite take_app. cbn [mbind option_bind]. rewrite drop_app_ge by lia. replace (length C + length (qsort R) - length C) with (length R) by lia. rewrite drop_app.
  rewrite slice_Some by (rewrite !app_length, drop_length; lia). rewrite drop_app, <- HlS, take_app. cbn [mbind option_bind].
  destruct (uniquify_ok lt shift (qsort R)) as (r & Eu & Hul). rewrite Eu. cbn [mbind option_bind]. change (thin lt shift (qsort R)) with (pts q) in *.
  rewrite memcpy_Some by (rewrite Hul, !app_length, drop_length; lia). rewrite take_app. cbn [mbind option_bind]. rewrite drop_app_ge by lia. rewrite Hul. replace (length C + length (qsort R) - length C) with (length (qsort R)) by lia. rewrite drop_app.
  rewrite Hn, Hpt. fold C. replace (3 * length C) with (length (concat (tris q))) by apply tris_length. rewrite Hco.
  rewrite (put_nodes_ok (pts q) _ _ _ (crd q) (concat (tris q)) nrest); [|by apply crd_ok| |].
  3: { assert (length (concat (tris q)) = 3 * length C) as HT by apply tris_length. rewrite Hn, app_length in Hnl. pose proof (concat_weight (q + 1) ltac:(lia)) as Hcw. rewrite Nat.add_1_r, seq_S, fmap_app, concat_app, app_length in Hcw. fold C in Hcw. cbn [fmap list_fmap concat Nat.add] in Hcw. rewrite app_nil_r in Hcw.
       pose proof (sum_prefix (weight nx ny) (S q) np ltac:(lia)) as Hsp. rewrite seq_S in Hsp. cbn [Nat.add] in Hsp. rewrite (weight_sum nx ny nz coord zcorn actnum Hin) in Hsp.
       assert (2 * nz * sum_list_with (weight nx ny) (seq 0 q ++ [q]) ≤ 2 * nz * (4 * (nx * ny))) as Hm by (apply Nat.mul_le_mono_l; exact Hsp). lia. }
  2: { intros k Hk. rewrite lookup_app_r by lia. replace (length C + k - length C) with k by lia. rewrite <- app_assoc. by rewrite lookup_app_l by done. }
  cbn [mbind option_bind]. rewrite upd_Some by lia. cbn [mbind option_bind]. eexists. split; [done|].
  assert (EC : concat (PP (q + 1)) = C ++ pts q) by (rewrite Nat.add_1_r, seq_S, fmap_app, concat_app; cbn [fmap list_fmap concat Nat.add]; by rewrite app_nil_r).
  assert (ET : concat (tris (q + 1)) = concat (tris q) ++ concat (tri (crd q) <$> pts q)). { unfold tris. rewrite Nat.add_1_r, seq_S, fmap_app, concat_app. cbn [fmap list_fmap concat Nat.add]. rewrite app_nil_r. apply concat_app. }
  split; cbn [p_zlist p_zout p_zptr p_pos p_nodes p_pt p_coord].
  - rewrite EC. exists (r ++ drop (length (qsort R)) rest). by rewrite <- !app_assoc.
  - rewrite Hz, !app_length in *. rewrite drop_length. lia.
  - rewrite EC, app_length. done.
  - intros q' Hq'. destruct (decide (q' = q + 1)) as [->|].
    + rewrite Hpos. rewrite list_lookup_insert by lia. by rewrite EC, app_length.
    + rewrite list_lookup_insert_ne by lia. apply Hzp. lia.
  - by rewrite insert_length.
  - lia.
  - rewrite ET. eexists. by rewrite <- app_assoc.
  - rewrite <- Hnl, Hn, !app_length, drop_length. assert (length (concat (tri (crd q) <$> pts q)) = 3 * length (pts q)) as ->.
    { generalize (pts q). intros l. induction l as [|x l IH]; [done|]. cbn [fmap list_fmap concat length]. rewrite app_length. cbn [fmap list_fmap] in IH. rewrite IH. cbn. lia. }
    assert (3 * length (pts q) ≤ length nrest); [|lia].
    assert (length (concat (tris q)) = 3 * length C) as HT by apply tris_length. rewrite Hn, app_length in Hnl. pose proof (concat_weight (q + 1) ltac:(lia)) as Hcw. rewrite EC, app_length in Hcw.
    pose proof (sum_prefix (weight nx ny) (q + 1) np ltac:(lia)) as Hsp. rewrite (weight_sum nx ny nz coord zcorn actnum Hin) in Hsp.
    assert (2 * nz * sum_list_with (weight nx ny) (seq 0 (q + 1)) ≤ 2 * nz * (4 * (nx * ny))) as Hm by (apply Nat.mul_le_mono_l; exact Hsp). lia.
  - rewrite EC, app_length. rewrite tris_length. fold C. lia.
  - lia.
Qed.

Lemma pillars_ok s : pinv 0 s → ∃ s', for_loop (ny + 1) 0 (λ j, for_loop (nx + 1) 0 (λ i, one_pillar lt shift qsort interp nx ny nz coord zcorn actnum i j)) s = Some s' ∧ pinv np s'.
Proof.
  intros H0. destruct (for_loop_inv (λ j s, pinv ((nx + 1) * j) s) (ny + 1) 0 (λ j, for_loop (nx + 1) 0 (λ i, one_pillar lt shift qsort interp nx ny nz coord zcorn actnum i j)) s) as (s' & E & Hs').
  - by rewrite Nat.mul_0_r.
  - intros j s1 Hj Hs1. destruct (for_loop_inv (λ i s, pinv (i + (nx + 1) * j) s) (nx + 1) 0 (λ i, one_pillar lt shift qsort interp nx ny nz coord zcorn actnum i j) s1) as (s2 & E2 & Hs2).
    + done.
    + intros i s2 Hi Hs2. destruct (one_pillar_ok i j s2) as (s3 & E3 & Hs3); [lia|lia|done|]. exists s3. split; [done|]. by replace (i + 1 + (nx + 1) * j) with (i + (nx + 1) * j + 1) by lia.
    + exists s2. split; [done|]. by replace ((nx + 1) * (j + 1)) with (0 + (nx + 1) + (nx + 1) * j) by lia.
  - exists s'. split; [done|]. by replace np with ((nx + 1) * (0 + (ny + 1))) by lia.
Qed.

(** ** Columns *)
Definition col_ok (i j : nat) (col : list Z) : Prop :=
  let q := pillar nx i j in let b := length (concat (PP q)) in
  length col = 2 * nz + 2 ∧ col !! 0 = Some int_min ∧ col !! (1 + 2 * nz) = Some int_max ∧ ∀ k, k < 2 * nz →
    (∀ z, active i j k → depth i j k z → ∃ n, col !! (1 + k) = Some (Z.of_nat (b + n)) ∧
      (∃ k' z', k' ≤ k ∧ active i j k' ∧ depth i j k' z' ∧ belongs lt shift (pts q) n z') ∧
      (∀ k' z' m, k' ≤ k → active i j k' → depth i j k' z' → belongs lt shift (pts q) m z' → m ≤ n)) ∧
    (¬ active i j k → col !! (1 + k) = col !! k).

Lemma pillar_lt i j : i < 2 * nx → j < 2 * ny → pillar nx i j < np.
Proof. intros Hi Hj. unfold pillar. assert ((i + 1) / 2 < nx + 1) by (apply Nat.div_lt_upper_bound; lia). assert ((j + 1) / 2 < ny + 1) by (apply Nat.div_lt_upper_bound; lia). nia. Qed.

Lemma one_column_ok s don rest i j : pinv np s → i < 2 * nx → j < 2 * ny → length don = (2 * nz + 2) * (i + 2 * nx * j) → 2 * nz + 2 ≤ length rest →
  ∃ col, one_column lt shift nx nz (p_zlist s) (p_zptr s) zcorn actnum i j (true, don ++ rest, length don) = Some (true, don ++ col ++ drop (2 * nz + 2) rest, length don + (2 + 2 * nz)) ∧ col_ok i j col.
Proof.
  intros [[zrest Hz] Hzl Hzo Hzp Hzpl Hpos _ _ _ _] Hi Hj Hd Hr. unfold one_column. pose proof (pillar_lt i j Hi Hj) as Hq. change ((i + 1) / 2 + (nx + 1) * ((j + 1) / 2)) with (pillar nx i j). set (q := pillar nx i j) in *.
  rewrite (Hzp q) by lia. rewrite (Hzp (q + 1)) by lia. cbn [mbind option_bind]. unfold assign_point_numbers.
  destruct rest as [|x0 rest]; [cbn in Hr; lia|]. cbn [length] in Hr. rewrite upd_Some by (rewrite app_length; cbn; lia). cbn [mbind option_bind].
  rewrite insert_app_r_alt by lia. rewrite Nat.sub_diag. change (<[0:=int_min]> (x0 :: rest)) with ([int_min] ++ rest). rewrite app_assoc.
  replace (S (length don)) with (length (don ++ [int_min])) by (rewrite app_length; cbn; lia).
  assert (EP : PP np !! q = Some (pts q)) by (rewrite list_lookup_fmap, lookup_seq_lt by lia; done).
  assert (ET : take q (PP np) = PP q) by (rewrite <- fmap_take, take_seq0 by lia; done).
  pose proof (concat_split (PP np) q (pts q) EP) as Ec. rewrite ET in Ec. rewrite Hz, Ec.
  assert (EC1 : length (concat (PP (q + 1))) = length (concat (PP q)) + length (pts q)) by (rewrite Nat.add_1_r, seq_S, fmap_app, concat_app, app_length; cbn [fmap list_fmap concat Nat.add]; by rewrite app_nil_r).
  rewrite EC1. destruct (pts_right lt shift qsort laws Hsort nx ny nz coord zcorn actnum Hin q Hq) as [_ Hgap _ Hnear].
  assert (Hact : ∀ k, act actnum (nz * (i / 2 + j / 2 * nx)) k ↔ active i j k). { intros k. unfold act, UniqSpec.active. by rewrite (Nat.mul_comm (j / 2) nx). }
  assert (Hdep : ∀ k z, zcorn !! (2 * nz * (i + 2 * nx * j) + k) = Some z ↔ depth i j k z) by done.
  destruct (assign_ok lt shift laws (concat (PP q)) (pts q) (concat (drop (S q) (PP np)) ++ zrest) zcorn actnum (2 * nz * (i + 2 * nx * j)) (nz * (i / 2 + j / 2 * nx)) Hgap (2 * nz) 0 0 int_min (don ++ [int_min]) rest) as (ns & E & Hl & Hns).
  - intros t _ Ht. assert (Hco : corner nx ny nz i j t) by (split; [done|]; split; [done|lia]). destruct (act_total nx ny nz coord zcorn actnum Hin i j t Hco) as [a Ha].
    split; [exists a; by rewrite (Nat.mul_comm (j / 2) nx)|]. destruct (depth_total nx ny nz coord zcorn actnum Hin i j t Hco) as [z Hzt]. exists z. split; [done|]. intros Hat%Hact. apply Hnear. exists i, j, t. done.
  - apply last_snoc.
  - lia.
  - by right.
  - rewrite Nat.add_0_r in E. rewrite <- !app_assoc in *. rewrite E. cbn [mbind option_bind].
    exists (int_min :: ns ++ [int_max]). split.
    { replace (2 * nz + 2) with (S (2 * nz + 1)) by lia. cbn [app drop]. rewrite <- app_assoc. done. }
    unfold col_ok. fold q. split; [cbn; rewrite app_length; cbn; lia|]. split; [done|]. split; [cbn [lookup list_lookup Nat.add]; change ((ns ++ [int_max]) !! (2 * nz) = Some int_max); rewrite lookup_app_r by lia; by rewrite Hl, Nat.sub_diag|].
    intros k Hk. destruct (Hns k Hk) as [H1 H2]. cbn [Nat.add] in H1, H2. change ((int_min :: ns ++ [int_max]) !! (1 + k)) with ((ns ++ [int_max]) !! k). rewrite (lookup_app_l ns) by lia. split.
    + intros z Hak Hdk. destruct (H1 (proj2 (Hact k) Hak)) as (n & En & _ & Hor & Hall). exists n. split; [done|]. split.
      * destruct Hor as [->|(t' & z' & Ht' & Ha' & Hz' & Hb)]; [|exists t', z'; split; [done|]; split; [by apply Hact|done]].
        destruct (Hnear z) as [m Hm]; [exists i, j, k; split; [split; [done|split; [done|lia]]|done]|]. assert (m ≤ 0) by (apply (Hall k z); [done|by apply Hact|done|done]). exists k, z. split; [done|]. split; [done|]. split; [done|]. by replace 0 with m by lia.
      * intros k' z' m Hk' Ha' Hd' Hb. apply (Hall k' z'); [done|by apply Hact|done|done].
    + intros Hna. rewrite H2 by (by rewrite Hact). destruct k as [|k]; [done|]. cbn [lookup list_lookup]. change ((int_min :: ns ++ [int_max]) !! S k) with ((ns ++ [int_max]) !! k). by rewrite (lookup_app_l ns) by lia.
Qed.

Record cinv (c : nat) (n : nat) (st : bool * list Z * nat) : Prop := {
  ci_all : ∃ cs rest, st = (true, concat cs ++ rest, (2 * nz + 2) * c) ∧ length cs = c ∧ Forall (λ l, length l = 2 * nz + 2) cs ∧ length (concat cs ++ rest) = n ∧
    ∀ i j col, i < 2 * nx → cs !! (i + 2 * nx * j) = Some col → col_ok i j col }.

Lemma rows_length {A} w (T : list (list A)) : Forall (λ l, length l = w) T → length (concat T) = w * length T.
Proof. induction 1 as [|l T Hl HT IH]; cbn; [lia|]. rewrite app_length, IH. lia. Qed.

Lemma columns_ok s plist : pinv np s → length plist = 8 * (nx * ny * nz + nx * ny) → ∃ st, for_loop (2 * ny) 0 (λ j, for_loop (2 * nx) 0 (λ i, one_column lt shift nx nz (p_zlist s) (p_zptr s) zcorn actnum i j)) (true, plist, 0) = Some st ∧ cinv (2 * nx * (2 * ny)) (length plist) st.
Proof.
  intros Hs Hl. destruct (for_loop_inv (λ j st, cinv (2 * nx * j) (length plist) st) (2 * ny) 0 (λ j, for_loop (2 * nx) 0 (λ i, one_column lt shift nx nz (p_zlist s) (p_zptr s) zcorn actnum i j)) (true, plist, 0)) as (s' & E & Hs').
  - split. exists [], plist. rewrite Nat.mul_0_r. split; [f_equal; lia|]. split; [done|]. split; [done|]. split; [done|]. done.
  - intros j s1 Hj Hs1. destruct (for_loop_inv (λ i st, cinv (i + 2 * nx * j) (length plist) st) (2 * nx) 0 (λ i, one_column lt shift nx nz (p_zlist s) (p_zptr s) zcorn actnum i j) s1) as (s2 & E2 & Hs2).
    + done.
    + intros i s2 Hi [(cs & rest & -> & Hlc & Hw & Htot & Hall)].
      pose proof (rows_length _ _ Hw) as Hcl. rewrite Hlc in Hcl. rewrite <- Hcl.
      destruct (one_column_ok s (concat cs) rest i j Hs) as (col & E3 & Hcol); [lia|lia|done| |].
      { rewrite app_length in Htot. assert (i + 2 * nx * j + 1 ≤ 2 * nx * (2 * ny)) by nia. nia. }
      rewrite E3. eexists. split; [done|]. split. exists (cs ++ [col]), (drop (2 * nz + 2) rest). split; [rewrite concat_app; cbn [concat]; rewrite app_nil_r, <- app_assoc; f_equal; lia|].
      split; [rewrite app_length; cbn; lia|]. destruct Hcol as [Hc1 Hc2]. split; [apply Forall_app; split; [done|apply Forall_singleton; done]|].
      split. { rewrite <- Htot. rewrite concat_app, !app_length, drop_length. cbn [concat length]. rewrite app_nil_r. assert (2 * nz + 2 ≤ length rest); [|lia]. rewrite app_length in Htot. assert (i + 2 * nx * j + 1 ≤ 2 * nx * (2 * ny)) by nia. nia. }
      intros i' j' col' Hi' Hc'. destruct (decide (i' + 2 * nx * j' < length cs)).
      * rewrite lookup_app_l in Hc' by done. by apply Hall.
      * rewrite lookup_app_r in Hc' by lia. destruct (i' + 2 * nx * j' - length cs) as [|d] eqn:Ed; [|done]. injection Hc' as <-. assert (Ee : i' + 2 * nx * j' = i + 2 * nx * j) by lia. apply pair_inj in Ee as [-> ->]; [|lia..]. done.
    + exists s2. split; [done|]. by replace (2 * nx * (j + 1)) with (0 + 2 * nx + 2 * nx * j) by lia.
  - exists s'. split; [done|]. done.
Qed.

Lemma find_ok plist : length plist = 8 * (nx * ny * nz + nx * ny) →
  ∃ u, finduniquepoints lt shift qsort interp junk nx ny nz coord zcorn actnum plist = Some u ∧ u_ok u = true ∧ length (u_plist u) = length plist ∧ length (u_nodes u) = 24 * (nx * ny * nz) ∧
    right_numbering lt shift interp nx ny nz coord zcorn actnum (PP np) u.
Proof.
  intros Hl. unfold finduniquepoints. cbn [p_zptr p_pos p_zout p_zlist p_nodes]. rewrite upd_Some by (rewrite replicate_length; lia). cbn [mbind option_bind].
  match goal with |- context [for_loop (ny + 1) 0 _ ?s] => destruct (pillars_ok s) as (s' & E & Hs') end.
  { split; cbn [p_zlist p_zout p_zptr p_pos p_nodes p_pt p_coord].
    - by eexists. - by rewrite replicate_length. - done. - intros q' Hq'. assert (q' = 0) as -> by lia. rewrite list_lookup_insert by (rewrite replicate_length; lia). done.
    - by rewrite insert_length, replicate_length. - done. - by eexists. - by rewrite replicate_length. - done. - done. }
  rewrite E. cbn [mbind option_bind]. pose proof Hs' as [_ _ _ Hzp _ Hpos [nrest Hn] Hnl _ _]. rewrite Hpos. replace (np + 1 - 1) with np by lia. rewrite Hzp by lia. cbn [mbind option_bind].
  destruct (columns_ok s' plist Hs' Hl) as (st & E2 & [(cs & rest & -> & Hlc & Hw & Htot & Hall)]). rewrite E2. cbn [mbind option_bind]. eexists. split; [done|]. split; [done|]. split; [done|]. split; [cbn [u_nodes]; lia|].
  assert (Hcol : ∀ i j, i < 2 * nx → j < 2 * ny → ∃ col, col_ok i j col ∧ ∀ k, k < 2 * nz + 2 → (concat cs ++ rest) !! ((2 * nz + 2) * (i + 2 * nx * j) + k) = col !! k).
  { intros i j Hi Hj. destruct (lookup_lt_is_Some_2 cs (i + 2 * nx * j)) as [col Ec]; [rewrite Hlc; nia|]. exists col. split; [by apply Hall|]. intros k Hk.
    pose proof (slice_rows _ cs rest _ _ Hw Ec) as Es. apply (slice_lookup _ _ _ _ k) in Es; [|done]. done. }
  assert (EP : ∀ q, q < np → PP np !! q = Some (pts q)) by (intros q Hq; rewrite list_lookup_fmap, lookup_seq_lt by lia; done).
  assert (ET : ∀ q, q < np → take q (PP np) = PP q) by (intros q Hq; rewrite <- fmap_take, take_seq0 by lia; done).
  split; cbn [u_ok u_plist u_num u_nodes].
  - by rewrite fmap_length, seq_length.
  - intros q L HL. assert (q < np) as Hq by (apply lookup_lt_Some in HL; by rewrite fmap_length, seq_length in HL). rewrite EP in HL by done. injection HL as <-. by apply (pts_right lt shift qsort laws Hsort nx ny nz coord zcorn actnum Hin).
  - done.
  - intros q L n z HL Hz. assert (q < np) as Hq by (apply lookup_lt_Some in HL; by rewrite fmap_length, seq_length in HL). rewrite EP in HL by done. injection HL as <-.
    exists (crd q), (interp (crd q) z).1, (interp (crd q) z).2. split; [by apply crd_ok|]. split; [by destruct (interp (crd q) z)|]. rewrite Hn, ET by done.
    apply (slice_rows 3 (tris np)).
    + apply Forall_forall. intros l Hl1. unfold tris in Hl1. apply elem_of_list_In, in_concat in Hl1 as (ll & H1 & H2). apply elem_of_list_In, elem_of_list_fmap in H1 as (q' & -> & _). apply elem_of_list_In, elem_of_list_fmap in H2 as (z' & -> & _). done.
    + set (T := (λ q', tri (crd q') <$> pts q') <$> seq 0 np). assert (HTq : T !! q = Some (tri (crd q) <$> pts q)) by (unfold T; rewrite list_lookup_fmap, lookup_seq_lt by lia; done).
      assert (Hlen : length (concat (take q T)) = length (concat (PP q))).
      { unfold T. rewrite <- fmap_take, take_seq0 by lia. generalize (seq 0 q). intros l. induction l as [|a l IH]; [done|]. cbn [fmap list_fmap concat]. rewrite !app_length, fmap_length. cbn [fmap list_fmap] in IH. by rewrite IH. }
      rewrite <- Hlen. apply (concat_at T q (tri (crd q) <$> pts q)); [done|]. rewrite list_lookup_fmap, Hz. done.
  - intros i j k z (Hi & Hj & Hk) Ha Hd. destruct (Hcol i j Hi Hj) as (col & (_ & _ & _ & Hc) & Hlk). destruct (Hc k Hk) as [H1 _]. destruct (H1 z Ha Hd) as (n & En & Hex & Hmax).
    assert (Hq : pillar nx i j < np) by (by apply pillar_lt). exists (pts (pillar nx i j)), (Z.of_nat (length (concat (PP (pillar nx i j))) + n)), n. split; [by apply EP|]. split; [unfold number; rewrite <- Nat.add_assoc, Hlk by lia; done|]. split; [by rewrite ET by done|]. done.
  - intros i j k (Hi & Hj & Hk) Hna. destruct (Hcol i j Hi Hj) as (col & (Hcl & _ & _ & Hc) & Hlk). destruct (Hc k Hk) as [_ H2]. specialize (H2 Hna). destruct (lookup_lt_is_Some_2 col k) as [v Hv]; [lia|].
    exists v. unfold number. rewrite <- Nat.add_assoc. rewrite !Hlk by lia. rewrite H2. done.
  - intros i j Hi Hj. destruct (Hcol i j Hi Hj) as (col & (_ & H0 & H1 & _) & Hlk). split; [pose proof (Hlk 0 ltac:(lia)) as E0; rewrite Nat.add_0_r in E0; by rewrite E0|]. rewrite <- Nat.add_assoc, Hlk by lia. done.
Qed.
End loop.
