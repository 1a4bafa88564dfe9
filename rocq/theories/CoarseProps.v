(** Theorems about the coarse topology: C13. *)
From Verif Require Import Base HashModel HashProof HashProps CsrModel CsrSpec CsrProof CoarseModel CoarseSpec CoarseProof CoarseBuild.
Unset Default Proof Using.

Section props.
Variable h : Z → nat → nat.
Hypothesis h_lt : ∀ k m, (0 ≤ k)%Z → 0 < m → h k m < m.
Variable expct : Z.
Hypothesis Hexpct : Nat.log2 (Z.to_nat expct) < 64.
Variables (nc nf : nat) (p nb : list Z).
Hypothesis Hin : valid_input nc nf p nb.

Lemma max_ok (l : list Z) a : (a ≤ foldl Z.max a l)%Z ∧ Forall (λ x, x ≤ foldl Z.max a l)%Z l ∧ (foldl Z.max a l = a ∨ foldl Z.max a l ∈ l).
Proof.
  revert a. induction l as [|x l IH]; intros a; cbn [foldl]; [split; [lia|]; split; [constructor|by left]|].
  destruct (IH (Z.max a x)) as (H1 & H2 & H3). split; [lia|]. split; [apply Forall_cons; split; [lia|done]|].
  destruct H3 as [H3|H3]; [|right; by right]. rewrite H3. destruct (decide (x ≤ a)%Z); [left; lia|]. right. rewrite Z.max_r by lia. by left.
Qed.
Lemma count_ok : ∃ nblk, count_blocks nc p = Some (Z.of_nat nblk) ∧ Forall (λ x, x < Z.of_nat nblk)%Z p ∧ (nblk = 0 ∨ (Z.of_nat nblk - 1)%Z ∈ p).
Proof.
  destruct Hin as [H1 H2 H3 H4]. destruct (max_ok p (-1)%Z) as (M1 & M2 & M3). exists (Z.to_nat (foldl Z.max (-1)%Z p + 1)).
  unfold count_blocks. rewrite (slice_pointwise p p 0 nc) by done. cbn [mbind option_bind]. split; [f_equal; lia|]. split.
  - eapply Forall_impl; [exact M2|]. cbn. intros. lia.
  - destruct M3 as [M3|M3]; [left; lia|right]. by replace (Z.of_nat (Z.to_nat (foldl Z.max (-1) p + 1)) - 1)%Z with (foldl Z.max (-1)%Z p) by lia.
Qed.

Lemma sides_in f x y : sides p nb f x y → f < nf ∧ (x = (-1)%Z ∨ x ∈ p) ∧ (y = (-1)%Z ∨ y ∈ p) ∧ (-1 ≤ x ∧ -1 ≤ y ∧ (0 ≤ x ∨ 0 ≤ y))%Z.
Proof.
  intros Hs. assert (f < nf) as Hf.
  { destruct Hs as (c1 & c2 & H1 & _). apply lookup_lt_Some in H1. destruct Hin. lia. }
  destruct (face_cases expct Hexpct nc nf p nb Hin f Hf) as (c1 & c2 & b1 & b2 & _ & _ & _ & _ & Hi & Hb & P1 & P2). apply Hi in Hs as [-> ->].
  split; [done|]. split; [destruct (decide (0 ≤ b1)%Z); [right; auto|left; lia]|]. split; [destruct (decide (0 ≤ b2)%Z); [right; auto|left; lia]|lia].
Qed.
Lemma between_in f x y : between p nb f x y → f < nf ∧ (x = (-1)%Z ∨ x ∈ p) ∧ (y = (-1)%Z ∨ y ∈ p) ∧ (-1 ≤ x ∧ -1 ≤ y ∧ (0 ≤ x ∨ 0 ≤ y))%Z.
Proof. intros [H|H]; apply sides_in in H; naive_solver. Qed.

Lemma pairs_elem b Ls x y : (x, y) ∈ pairs_from b Ls ↔ ∃ k L n, Ls !! k = Some L ∧ n ∈ L ∧ x = Z.of_nat (b + k) ∧ y = nb_b n.
Proof.
  revert b. induction Ls as [|L Ls IH]; intros b; cbn [pairs_from].
  - rewrite elem_of_nil. split; [done|]. intros (k & L & n & H & _). done.
  - rewrite elem_of_app, IH, elem_of_list_fmap. split.
    + intros [(n & [= -> ->] & Hn)|(k & M & n & H1 & H2 & -> & ->)].
      * exists 0, L, n. split_and!; try done. f_equal. lia.
      * exists (S k), M, n. split_and!; try done. f_equal. lia.
    + intros ([|k] & M & n & H1 & H2 & -> & ->).
      * injection H1 as ->. left. exists n. split; [|done]. f_equal. f_equal. lia.
      * right. exists k, M, n. split_and!; try done. f_equal. lia.
Qed.
Lemma pairs_NoDup b Ls : Forall (StronglySorted before) Ls → NoDup (pairs_from b Ls).
Proof.
  intros Hs. revert b. induction Hs as [|L Ls HL Hs IH]; intros b; cbn [pairs_from]; [constructor|]. apply NoDup_app. split_and!.
  - apply NoDup_alt. intros i j x Hi Hj. rewrite list_lookup_fmap in Hi, Hj. destruct (L !! i) as [n|] eqn:E1; [|done]. destruct (L !! j) as [m|] eqn:E2; [|done]. cbn in Hi, Hj.
    assert (nb_b n = nb_b m) by congruence. destruct (Nat.lt_trichotomy i j) as [Hlt|[?|Hlt]]; [|done|].
    + pose proof (sorted_lookup expct Hexpct L i j n m HL E1 E2 Hlt). lia.
    + pose proof (sorted_lookup expct Hexpct L j i m n HL E2 E1 Hlt). lia.
  - intros [x y] H1 H2. apply elem_of_list_fmap in H1 as (n & [= -> ->] & _). apply pairs_elem in H2 as (k & M & m & _ & _ & E & _). lia.
  - apply IH.
Qed.

Lemma total_ok bns Ls a : Forall2 laid_opt bns Ls →
  foldl (λ r x, match x with Some x => r + Z.of_nat (ns_num x) | None => r end)%Z a bns = (a + Z.of_nat (length (concat Ls)))%Z.
Proof.
  intros H. revert a. induction H as [|x L bns Ls Hx H IH]; intros a; cbn [foldl concat length]; [lia|]. rewrite IH, app_length. destruct x as [n|]; cbn in Hx.
  - rewrite (ld_num _ _ Hx). lia.
  - subst L. cbn. lia.
Qed.

(** What is known of the whole function; see the theorems below. *)
Lemma create_ok junk o : ∃ r o', create h junk nc nf expct p nb o = Some (r, o') ∧ (o = [] → is_Some r) ∧
  ∀ t, r = Some t → right_number p t ∧ right_faces p nb t ∧ right_blocks t ∧
    (∀ spos sub, t_sub t = Some (spos, sub) → (0 < expct)%Z ∧ right_subs p nb t spos sub) ∧
    (o = [] → (0 < expct)%Z → 0 < t_nfaces t → is_Some (t_sub t)).
Proof.
  destruct count_ok as (nblk & Hc & Hlt & Hmax). unfold create. rewrite Hc. cbn [mbind option_bind]. rewrite Nat2Z.id.
  destruct (next_alloc o) as [ok o1] eqn:Eo1. assert (Ho1 : o = [] → ok = true ∧ o1 = []) by (intros ->; cbn in Eo1; by injection Eo1 as <- <-).
  destruct ok; [|eexists _, _; split; [done|]; split; [intros E; by apply Ho1 in E as [??]|done]].
  destruct (derive_loop_ok h h_lt expct Hexpct nc nf p nb Hin nblk nf 0 (replicate nblk None) 0 o1) as (ret & bns & o2 & E & Hl & Ho2 & Hinv).
  { lia. } { done. } { by rewrite replicate_length. }
  { intros _. exists (replicate nblk []). split.
    - apply Forall2_same_length_lookup_2; [by rewrite !replicate_length|]. intros i x y Hx Hy. apply lookup_replicate in Hx as [-> _]. apply lookup_replicate in Hy as [-> _]. done.
    - intros b L HL. apply lookup_replicate in HL as [-> _]. split; [constructor|constructor|]. intros y. split; [intros (n & Hn & _); by apply elem_of_nil in Hn|]. intros (g & f & Hf & _). lia. }
  unfold derive_block_faces. rewrite E. cbn [mbind option_bind].
  destruct (decide (0 ≤ ret)%Z) as [Hret|Hret].
  2: { cbn [mbind option_bind]. unfold build. destruct (next_alloc o2) as [[] o3]; cbn [negb].
       - destruct (next_alloc o3) as [? o4]. destruct (next_alloc o4) as [? o5]. rewrite bool_decide_false by lia. cbn [andb negb]. eexists _, _. split; [done|]. split; [|done].
         intros Ho. destruct (Ho1 Ho) as [_ ->]. destruct (Ho2 ltac:(lia) eq_refl). lia.
       - eexists _, _. split; [done|]. split; [|done]. intros Ho. destruct (Ho1 Ho) as [_ ->]. destruct (Ho2 ltac:(lia) eq_refl). lia. }
  destruct (Hinv Hret) as (Ls & HL & HR). pose proof (Forall2_length _ _ _ HL) as HlL.
  rewrite (slice_pointwise bns bns 0 nblk) by done. cbn [mbind option_bind]. rewrite (total_ok bns Ls 0 HL), Z.add_0_l.
  unfold build. destruct (next_alloc o2) as [ok o3] eqn:Eo3. destruct ok; cbn [negb].
  2: { eexists _, _. split; [done|]. split; [|done]. intros Ho. destruct (Ho1 Ho) as [_ ->]. destruct (Ho2 ltac:(lia) eq_refl) as [_ ->]. done. }
  destruct (next_alloc o3) as [ok4 o4] eqn:Eo4. destruct (next_alloc o4) as [ok5 o5] eqn:Eo5. rewrite bool_decide_true by lia. cbn [andb].
  destruct (ok4 && ok5) eqn:Eok; cbn [negb].
  2: { eexists _, _. split; [done|]. split; [|done]. intros Ho. destruct (Ho1 Ho) as [_ ->]. destruct (Ho2 ltac:(lia) eq_refl) as [_ ->]. cbn in Eo3. injection Eo3 as <-. cbn in Eo4. injection Eo4 as <- <-. cbn in Eo5. injection Eo5 as <- <-. done. }
  rewrite Nat2Z.id. set (prs := pairs_from 0 Ls). assert (Hlp : length (concat Ls) = length prs) by (unfold prs; by rewrite pairs_length).
  (* the pairs *)
  assert (Hpk : ∀ x y, (x, y) ∈ prs ↔ ∃ f b, x = Z.of_nat b ∧ b < nblk ∧ keyed p nb f b y).
  { intros x y. unfold prs. rewrite pairs_elem. split.
    - intros (k & L & n & HLk & Hn & -> & ->). pose proof (HR _ _ HLk) as [_ _ R3]. destruct (proj1 (R3 (nb_b n))) as (g & f & _ & _ & Hk); [by exists n|]. exists f, k. split; [f_equal; lia|]. split; [|done].
      apply lookup_lt_Some in HLk. lia.
    - intros (f & b & -> & Hb & Hk). destruct (lookup_lt_is_Some_2 Ls b) as [L HLb]; [lia|]. pose proof (HR _ _ HLb) as [_ _ R3].
      destruct (proj2 (R3 y)) as (n & Hn & <-); [|exists b, L, n; split_and!; try done; f_equal; lia]. exists (Z.of_nat f), f. split; [|done]. by destruct Hk as [_ (Hfn & _)%between_in]. }
  assert (Hps : ∀ x y, (x, y) ∈ prs → (0 ≤ x < Z.of_nat nblk ∧ (y = -1 ∨ x < y))%Z ∧ (y < Z.of_nat nblk)%Z ∧ ∃ f, between p nb f x y).
  { intros x y Hxy. apply Hpk in Hxy as (f & b & -> & Hb & [Hy Hbt]). split; [lia|]. split; [|by exists f]. apply between_in in Hbt as (_ & _ & [->|Hyp] & _); [lia|]. rewrite Forall_forall in Hlt. by apply Hlt. }
  assert (Hrange : in_range nblk prs). { intros x y Hxy. destruct (Hps x y Hxy) as (? & ? & _). lia. }
  assert (Hnd : NoDup prs). { apply pairs_NoDup. apply Forall_lookup. intros b L HbL. apply (HR _ _ HbL). }
  assert (Hprs2 : ∀ x y, (x, y) ∈ prs → (0 ≤ x)%Z ∧ x ≠ y). { intros x y Hxy. destruct (Hps x y Hxy) as (? & ? & _). lia. }
  set (items := items_from 0 prs).
  (* coarse faces *)
  unfold build_coarsef. destruct (count_scan nblk (keys prs) items) as (pos & Ec & Epos).
  { by apply keys_range. } { unfold items. by rewrite items_keys. }
  pose proof (coarsef_blocks_ok Ls bns [] [] (replicate (2 * length (concat Ls)) int_min) (replicate (nblk + 1) 0) pos 0 HL) as Ecf.
  rewrite replicate_length in Ecf. specialize (Ecf eq_refl Ec). cbn [length app flat fmap list_fmap concat] in Ecf. rewrite <- HlL, Hl in Ecf. change (concat []) with (@nil Z) in Ecf. cbn [app] in Ecf.
  rewrite Ecf. cbn [mbind option_bind]. clear Ecf. rewrite Epos. rewrite Nat.add_0_l. fold prs.
  set (cs := (λ i, length (row_of items i)) <$> seq 0 nblk) in *. pose proof (scan_loop_correct cs) as Esc. replace (length cs) with nblk in Esc by (unfold cs; by rewrite fmap_length, seq_length).
  rewrite Esc. cbn [mbind option_bind lookup list_lookup]. rewrite upd_Some by (cbn; lia). cbn [mbind option_bind insert list_insert].
  assert (Hkeys : Forall (λ kv, kv.1 < nblk) items).
  { pose proof (keys_range nblk prs Hrange) as Hk. rewrite <- (items_keys 0) in Hk. by rewrite Forall_fmap in Hk. }
  pose proof (sum_counts nblk items Hkeys) as Esum. change (sum_list cs = length items) in Esum. rewrite Esum.
  set (nsub := sum_list_with count_set (concat Ls)).
  assert (∃ subs o6, (if decide (0 < nsub) then let '(ok1, o) := next_alloc o5 in let '(ok2, o0) := next_alloc o in
      if ok1 && ok2 then (Some (replicate (length (concat Ls) + 1) 0, replicate nsub (Z.of_nat junk)), o0) else (None, o0) else (None, o5)) = (subs, o6) ∧
      (o5 = [] → o6 = []) ∧ (subs = None ∨ subs = Some (replicate (length (concat Ls) + 1) 0, replicate nsub (Z.of_nat junk))) ∧ (o5 = [] → 0 < nsub → is_Some subs) ∧ (is_Some subs → 0 < nsub)) as (subs & o6 & -> & Ho6 & Hsubs & Hsome & Hpos).
  { destruct (decide (0 < nsub)).
    - destruct (next_alloc o5) as [ok6 o6] eqn:Eo6. destruct (next_alloc o6) as [ok7 o7] eqn:Eo7. destruct (ok6 && ok7) eqn:Eok2.
      + eexists _, _. split; [done|]. split; [intros ->; cbn in Eo6; injection Eo6 as <- <-; cbn in Eo7; by injection Eo7 as <- <-|]. split; [by right|]. split; [intros; by eexists|done].
      + eexists _, _. split; [done|]. split; [intros ->; cbn in Eo6; injection Eo6 as <- <-; cbn in Eo7; by injection Eo7 as <- <-|]. split; [by left|]. split; [|by intros [??]].
        intros ->. cbn in Eo6. injection Eo6 as <- <-. cbn in Eo7. injection Eo7 as <- <-. done.
    - eexists _, _. split; [done|]. split; [done|]. split; [by left|]. split; [done|by intros [??]]. }
  destruct (next_alloc o6) as [ok7 o7] eqn:Eo7. destruct ok7; cbn [negb].
  2: { eexists _, _. split; [done|]. split; [|done]. intros Ho. destruct (Ho1 Ho) as [_ ->]. destruct (Ho2 ltac:(lia) eq_refl) as [_ ->]. cbn in Eo3. injection Eo3 as <-. cbn in Eo4. injection Eo4 as <- <-. cbn in Eo5. injection Eo5 as <- <-. rewrite Ho6 in Eo7 by done. done. }
  (* final *)
  fold (flat prs). change (<[0:=0]> (length items :: offs 0 cs)) with (0 :: offs 0 cs). unfold build_final. rewrite Hlp. pose proof (final_faces_ok prs [] (0 :: offs 0 cs, replicate (length items) junk) Hprs2) as Eff. cbn [length app] in Eff. rewrite Eff. clear Eff.
  fold items. unfold cs. rewrite (push_all_correct nblk items Hkeys 0 (replicate (length items) junk)) by (by rewrite replicate_length). cbn [mbind option_bind].
  set (rows := rows_of nblk items).
  assert (Estart : 0 :: tail (starts 0 rows) = starts 0 rows) by (by destruct rows).
  (* what holds of the result whatever the sub-faces *)
  assert (Hcf : ∀ subs' i x y, coarse_face (Topology nblk (length prs) (flat prs) (starts 0 rows) (concat rows) subs') i x y ↔ prs !! i = Some (x, y)).
  { intros subs' i x y. unfold coarse_face. cbn [t_nfaces t_neighbours]. destruct (flat_lookup prs i) as [-> ->]. split.
    - intros (Hi & H1 & H2). destruct (prs !! i) as [[x' y']|]; [|done]. cbn in H1, H2. congruence.
    - intros Hi. rewrite Hi. split; [by eapply lookup_lt_Some|done]. }
  assert (Hcommon : ∀ subs', let t := Topology nblk (length prs) (flat prs) (starts 0 rows) (concat rows) subs' in right_number p t ∧ right_faces p nb t ∧ right_blocks t).
  { intros subs' t. split; [done|]. split.
    - split.
      + cbn. by rewrite flat_length.
      + intros i x y Hi. apply Hcf in Hi. apply elem_of_list_lookup_2 in Hi. destruct (Hps x y Hi) as (? & _ & ?). split; [lia|done].
      + intros f x y Hbt Hxy. destruct (between_in f x y Hbt) as (Hf & Hx & Hy & Hxy1 & Hxy2 & Hor).
        assert ((x, y) ∈ prs ∨ (y, x) ∈ prs) as [Hp|Hp].
        { assert (Hmem : ∀ x, (0 ≤ x)%Z → x = (-1)%Z ∨ x ∈ p → Z.to_nat x < nblk). { intros z Hz [->|Hzp]; [lia|]. rewrite Forall_forall in Hlt. specialize (Hlt z Hzp). cbn in Hlt. lia. }
          destruct (decide (0 ≤ x ∧ (y = -1 ∨ x < y))%Z) as [[G1 G2]|G].
          - left. apply Hpk. exists f, (Z.to_nat x). split; [lia|]. split; [by apply Hmem|]. unfold keyed. rewrite Z2Nat.id by lia. done.
          - right. apply Hpk. exists f, (Z.to_nat y). split; [lia|]. split; [apply Hmem; [lia|done]|]. unfold keyed. rewrite Z2Nat.id by lia. split; [lia|]. by apply between_sym. }
        * apply elem_of_list_lookup in Hp as [i Hi]. exists i. left. by apply Hcf.
        * apply elem_of_list_lookup in Hp as [i Hi]. exists i. right. by apply Hcf.
      + intros i j x y Hi [Hj|Hj]; apply Hcf in Hi, Hj.
        * by eapply NoDup_lookup.
        * apply elem_of_list_lookup_2 in Hi, Hj. destruct (Hps x y Hi) as (? & _). destruct (Hps y x Hj) as (? & _). lia.
    - exists rows. split; [exact (starts_holds rows)|]. split; [unfold rows, rows_of; by rewrite fmap_length, seq_length|].
      intros b r Hr. unfold rows, rows_of in Hr. rewrite list_lookup_fmap in Hr. destruct (seq 0 nblk !! b) as [b'|] eqn:Eb; [|done]. apply lookup_seq in Eb as [-> Hb]. cbn in Hr. injection Hr as <-.
      split; [by apply row_sorted|]. intros i. rewrite row_elem. unfold items. rewrite items_elem. rewrite Nat.sub_0_r. split.
      + intros (_ & [x y] & Hi & Hbe). exists x, y. split; [by apply Hcf|]. destruct (Hprs2 x y) as [Hx _]; [by eapply elem_of_list_lookup_2|]. unfold ends in Hbe. cbn [fst snd] in Hbe. apply elem_of_cons in Hbe as [->|Hbe]; [left; lia|].
        destruct (decide (0 ≤ y)%Z); [|by apply elem_of_nil in Hbe]. apply elem_of_list_singleton in Hbe as ->. right. lia.
      + intros (x & y & Hi & Hxy). apply Hcf in Hi. split; [lia|]. exists (x, y). split; [done|]. unfold ends. cbn [fst snd]. destruct Hxy as [-> | ->].
        * rewrite Nat2Z.id. by left.
        * right. rewrite decide_True by lia. apply elem_of_list_singleton. lia. }
  (* sets *)
  assert (Hsets : ∀ b L n, Ls !! b = Some L → n ∈ L → set_ok h expct (seen p nb nf b) n). { intros b L n HbL Hn. pose proof (HR _ _ HbL) as [_ R2 _]. rewrite Forall_forall in R2. by apply R2. }
  assert (Hnsub : (0 < expct)%Z → nsub = 0 → length prs = 0).
  { intros He Hz. destruct prs as [|[x y] prs'] eqn:Eprs; [done|]. exfalso. assert ((x, y) ∈ pairs_from 0 Ls) as Hxy by (fold prs; rewrite Eprs; by left).
    apply pairs_elem in Hxy as (k & L & n & HLk & Hn & _ & _). pose proof (Hsets _ _ _ HLk Hn) as Hs. pose proof (HR _ _ HLk) as [_ _ R3]. destruct (proj1 (R3 (nb_b n))) as [g Hg]; [by exists n|].
    unfold set_ok in Hs. destruct (nb_set n) as [t|] eqn:En; [|lia]. destruct Hs as (_ & [q Hw] & Hm). apply Hm in Hg.
    assert (count_set n = 0). { assert (n ∈ concat Ls) as Hnc by (apply elem_of_list_In, in_concat; exists L; split; apply elem_of_list_In; [by eapply elem_of_list_lookup_2|done]).
      unfold nsub in Hz. clear -Hz Hnc. induction (concat Ls) as [|z l IH]; [by apply elem_of_nil in Hnc|]. cbn in Hz. apply elem_of_cons in Hnc as [->|Hnc]; [lia|]. apply IH; [lia|done]. }
    rewrite (count_members h n) in H by (by exists t, q). unfold members_of in H. rewrite En in H. destruct (members (hs_s t)); [by apply elem_of_nil in Hg|done]. }
  destruct Hsubs as [->|Hs].
  { cbn [mbind option_bind]. rewrite Estart. eexists _, _. split; [done|]. split; [intros; by eexists|]. intros t [= <-]. destruct (Hcommon None) as (C1 & C2 & C3). split_and!; try done.
    intros Ho He Hnf. exfalso. cbn [t_nfaces] in Hnf. destruct (decide (0 < nsub)) as [Hn|Hn]; [|rewrite Hnsub in Hnf by (done || lia); lia].
    destruct (Ho1 Ho) as [_ ->]. destruct (Ho2 ltac:(lia) eq_refl) as [_ ->]. cbn in Eo3. injection Eo3 as <-. cbn in Eo4. injection Eo4 as <- <-. cbn in Eo5. injection Eo5 as <- <-. by destruct (Hsome eq_refl Hn) as [??]. }
  assert (He : (0 < expct)%Z).
  { assert (Hn : 0 < nsub) by (apply Hpos; rewrite Hs; by eexists). destruct (decide (0 < expct)%Z) as [|He]; [done|]. exfalso. assert (∀ n, n ∈ concat Ls → count_set n = 0) as Hz.
    { intros n Hnc. apply elem_of_list_In, in_concat in Hnc as (L & HL' & Hn'). apply elem_of_list_In, elem_of_list_lookup in HL' as [b HbL]. apply elem_of_list_In in Hn'. pose proof (Hsets _ _ _ HbL Hn') as Hset. unfold set_ok in Hset. unfold count_set. destruct (nb_set n); [|done]. lia. }
    unfold nsub in Hn. clear -Hn Hz. induction (concat Ls) as [|z l IH]; [cbn in Hn; lia|]. cbn in Hn. rewrite Hz in Hn by left. apply IH; [lia|]. intros m Hm. apply Hz. by right. }
  assert (Hfull : Forall (Forall (full h)) Ls).
  { apply Forall_lookup. intros b L HbL. apply Forall_forall. intros n Hn. pose proof (Hsets _ _ _ HbL Hn) as Hset. unfold set_ok in Hset. destruct (nb_set n) as [t|] eqn:En; [|lia]. destruct Hset as (_ & [q Hw] & _). by exists t, q. }
  destruct (sub_blocks_ok h Ls bns [] [] (replicate (length prs + 1) 0) (replicate nsub (Z.of_nat junk)) HL Hfull) as (spos & cf & sp & Esub & Hspos & Hlspos).
  { intros k Hk. cbn in Hk. replace k with 0 by lia. cbn. apply lookup_replicate_2. lia. } { rewrite replicate_length. cbn. lia. } { by rewrite replicate_length. }
  cbn [app length concat] in Esub. rewrite <- HlL, Hl in Esub. rewrite Hs. rewrite Hlp. rewrite Esub. cbn [mbind option_bind]. rewrite Estart. eexists _, _. split; [done|]. split; [intros; by eexists|]. intros t [= <-].
  cbn [app] in Hspos. set (sub := concat (members_of <$> concat Ls)). destruct (Hcommon (Some (spos, sub))) as (C1 & C2 & C3). split; [done|]. split; [done|]. split; [done|]. split; [|intros; by eexists].
  intros spos' sub' [= <- <-]. split; [done|]. exists (members_of <$> concat Ls). rewrite replicate_length in Hlspos. split; [apply delimits_concat; [rewrite fmap_length; lia|done]|]. split; [rewrite fmap_length; done|].
  intros i r x y Hr Hi. apply Hcf in Hi. rewrite list_lookup_fmap in Hr. destruct (concat Ls !! i) as [n|] eqn:En; [|done]. cbn in Hr. injection Hr as <-.
  assert (∃ b L, Ls !! b = Some L ∧ n ∈ L ∧ x = Z.of_nat b ∧ y = nb_b n) as (b & L & HbL & Hn & -> & ->).
  { assert (G : ∀ Ls b i n x y, concat Ls !! i = Some n → pairs_from b Ls !! i = Some (x, y) → ∃ k L, Ls !! k = Some L ∧ n ∈ L ∧ x = Z.of_nat (b + k) ∧ y = nb_b n).
    { clear. induction Ls as [|L Ls IH]; intros b i n x y E1 E2; [done|]. cbn [concat pairs_from] in E1, E2. destruct (decide (i < length L)).
      - rewrite lookup_app_l in E1 by done. rewrite lookup_app_l in E2 by (by rewrite fmap_length). rewrite list_lookup_fmap, E1 in E2. cbn in E2. injection E2 as <- <-. exists 0, L. split_and!; try done; [by eapply elem_of_list_lookup_2|f_equal; lia].
      - rewrite lookup_app_r in E1 by lia. rewrite lookup_app_r in E2 by (rewrite fmap_length; lia). rewrite fmap_length in E2. destruct (IH _ _ _ _ _ E1 E2) as (k & M & ? & ? & -> & ->). exists (S k), M. split_and!; try done. f_equal. lia. }
    exact (G Ls 0 i n x y En Hi). }
  pose proof (Hsets _ _ _ HbL Hn) as Hset. unfold set_ok in Hset. unfold members_of. destruct (nb_set n) as [t|]; [|lia]. destruct Hset as (_ & [q Hw] & Hm). split; [exact (members_NoDup h q _ (wi_inv _ _ _ Hw))|].
  intros g. rewrite Hm. unfold seen, keyed. split.
  - intros (f & _ & -> & _ & Hbt). by exists f.
  - intros (f & -> & Hbt). exists f. split; [by destruct (between_in _ _ _ Hbt)|]. split; [done|]. split; [|done]. apply elem_of_list_lookup_2 in Hi. destruct (Hps _ _ Hi) as ([? ?] & _). lia.
Qed.

(** ** C13: the coarse faces are exactly the interfaces between blocks, one for
    each; blocks are numbered up to the largest of the partition. *)
Theorem C13_interfaces junk o t o' : create h junk nc nf expct p nb o = Some (Some t, o') → right_number p t ∧ right_faces p nb t.
Proof. intros E. destruct (create_ok junk o) as (r & o1 & E1 & _ & H). rewrite E in E1. injection E1 as <- <-. by destruct (H t eq_refl) as (? & ? & _). Qed.
(** ** C13: the faces of each block. *)
Theorem C13_block_faces junk o t o' : create h junk nc nf expct p nb o = Some (Some t, o') → right_blocks t.
Proof. intros E. destruct (create_ok junk o) as (r & o1 & E1 & _ & H). rewrite E in E1. injection E1 as <- <-. by destruct (H t eq_refl) as (_ & _ & ? & _). Qed.
(** ** C13: the sub-faces of each coarse face. *)
Theorem C13_sub_faces junk o t o' spos sub : create h junk nc nf expct p nb o = Some (Some t, o') → t_sub t = Some (spos, sub) →
  (0 < expct)%Z ∧ right_subs p nb t spos sub.
Proof. intros E. destruct (create_ok junk o) as (r & o1 & E1 & _ & H). rewrite E in E1. injection E1 as <- <-. destruct (H t eq_refl) as (_ & _ & _ & Hs & _). apply Hs. Qed.
(** ** C13: a fine face between different blocks belongs to one coarse face. *)
Theorem C13_partition junk o t o' spos sub f x y : create h junk nc nf expct p nb o = Some (Some t, o') → t_sub t = Some (spos, sub) →
  between p nb f x y → x ≠ y → ∃ rows i, delimits spos sub rows ∧ (∃ r, rows !! i = Some r ∧ Z.of_nat f ∈ r) ∧
    ∀ j r, rows !! j = Some r → Z.of_nat f ∈ r → j = i.
Proof.
  intros E Es Hb Hxy. destruct (C13_interfaces _ _ _ _ E) as [_ Hf]. destruct (C13_sub_faces _ _ _ _ _ _ E Es) as (_ & rows & Hd & Hl & Hr).
  destruct (rf_complete _ _ _ Hf f x y Hb Hxy) as [i Hi].
  assert (∃ x y, coarse_face t i x y ∧ between p nb f x y) as (x' & y' & Hi' & Hb'). { destruct Hi as [Hi|Hi]; eexists _, _; (split; [exact Hi|]); [done|by apply between_sym]. }
  exists rows, i. split; [done|]. destruct (lookup_lt_is_Some_2 rows i) as [r Hri]; [rewrite Hl; apply Hi'|]. split.
  - exists r. split; [done|]. destruct (Hr i r x' y' Hri Hi') as [_ Hg]. apply Hg. by exists f.
  - intros j s Hj Hfs. assert (Hjl : j < t_nfaces t) by (rewrite <- Hl; by eapply lookup_lt_Some). pose proof (rf_length _ _ _ Hf) as Hlen.
    destruct (lookup_lt_is_Some_2 (t_neighbours t) (2 * j)) as [u Hu]; [lia|]. destruct (lookup_lt_is_Some_2 (t_neighbours t) (2 * j + 1)) as [v Hv]; [lia|].
    assert (Hcj : coarse_face t j u v) by done. destruct (Hr j s u v Hj Hcj) as [_ Hg]. apply Hg in Hfs as (f' & Ef & Hb2). assert (f' = f) as -> by lia.
    assert (f < nf) as Hfn by (by destruct (between_in _ _ _ Hb)).
    destruct (face_cases expct Hexpct nc nf p nb Hin f Hfn) as (c1 & c2 & b1 & b2 & _ & _ & _ & _ & Hsd & _).
    apply (rf_unique _ _ _ Hf j i u v Hcj). unfold between in Hb2, Hb'. rewrite !Hsd in Hb2, Hb'.
    destruct Hb2 as [[-> ->]|[-> ->]], Hb' as [[-> ->]|[-> ->]]; auto.
Qed.
(** ** C13: no undefined behaviour, also when memory is exhausted; with memory
    the topology is made, with its sub-faces if they are asked for. *)
Theorem C13_total junk o : ∃ r o', create h junk nc nf expct p nb o = Some (r, o') ∧ (o = [] → ∃ t, r = Some t ∧ ((0 < expct)%Z → 0 < t_nfaces t → is_Some (t_sub t))).
Proof.
  destruct (create_ok junk o) as (r & o' & E & Hs & H). exists r, o'. split; [done|]. intros Ho. destruct (Hs Ho) as [t ->]. exists t. split; [done|].
  destruct (H t eq_refl) as (_ & _ & _ & _ & H5). by apply H5.
Qed.
End props.
Print Assumptions C13_interfaces.
Print Assumptions C13_block_faces.
Print Assumptions C13_sub_faces.
Print Assumptions C13_partition.
Print Assumptions C13_total.

(** Two rows of three cells in blocks 0, 1 and 3 of two cells each; block
    number 2 is not used. *)
Local Definition p_ex : list Z := [0; 0; 1; 1; 3; 3]%Z.
Local Definition nb_ex : list Z := [-1; 0; 0; 1; 1; 2; 2; -1; -1; 3; 3; 4; 4; 5; 5; -1; 0; 3; 1; 4; 2; 5]%Z.
Local Lemma valid_ex : valid_input 6 11 p_ex nb_ex.
Proof.
  split; [done|done|repeat constructor; lia|]. intros f c1 c2 H1 H2. pose proof (lookup_lt_Some _ _ _ H1) as Hf. cbn in Hf.
  assert (f < 11) as Hf' by lia. clear Hf. do 11 (destruct f as [|f]; [cbn in H1, H2; injection H1 as <-; injection H2 as <-; lia|]). lia.
Qed.
Example C13_example : ∃ t, create HashProps.h0 7 6 11 2 p_ex nb_ex [] = Some (Some t, []) ∧ t_nblocks t = 4 ∧
  t_neighbours t = [0; -1; 0; 1; 0; 3; 1; -1; 1; 3; 3; -1]%Z ∧ t_blkfacepos t = [0; 3; 6; 6; 9] ∧ t_blkfaces t = [0; 1; 2; 1; 3; 4; 2; 4; 5] ∧
  ∃ spos, fst <$> t_sub t = Some spos ∧ spos = [0; 1; 3; 4; 6; 8; 9].
Proof. eexists. split; [vm_compute; reflexivity|]. split_and!; try (vm_compute; reflexivity). eexists. split; vm_compute; reflexivity. Qed.
