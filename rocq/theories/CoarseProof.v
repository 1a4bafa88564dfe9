(** Lemmas about the coarse topology. *)
From Verif Require Import Base HashModel HashProof HashProps CsrModel CsrSpec CsrProof CoarseModel CoarseSpec.
Unset Default Proof Using.

Section coarse.
Variable h : Z → nat → nat.
Hypothesis h_lt : ∀ k m, (0 ≤ k)%Z → 0 < m → h k m < m.
Variable expct : Z.
Hypothesis Hexpct : Nat.log2 (Z.to_nat expct) < 64.

(** The first entries of the table are the neighbours [L]. *)
Record laid (n : nbrs) (L : list nbr) : Prop := {
  ld_num : ns_num n = length L;
  ld_cpty : ns_cpty n = length (ns_arr n);
  ld_pos : 0 < ns_cpty n;
  ld_le : length L ≤ ns_cpty n;
  ld_arr : ∀ i x, L !! i = Some x → ns_arr n !! i = Some (Some x) }.
Definition laid_opt (x : option nbrs) (L : list nbr) : Prop := match x with Some n => laid n L | None => L = [] end.

Definition before (a b : nbr) : Prop := (nb_b a < nb_b b)%Z.
Definition set_ok (R : Z → Z → Prop) (n : nbr) : Prop :=
  match nb_set n with
  | Some t => (0 < expct)%Z ∧ (∃ p, winv h t p) ∧ ∀ g, g ∈ members (hs_s t) ↔ R (nb_b n) g
  | None => (expct ≤ 0)%Z
  end.
Record repr (L : list nbr) (R : Z → Z → Prop) : Prop := {
  rp_sorted : StronglySorted before L;
  rp_sets : Forall (set_ok R) L;
  rp_keys : ∀ y, (∃ n, n ∈ L ∧ nb_b n = y) ↔ ∃ g, R y g }.

Lemma repr_ext L R R' : (∀ y g, R y g ↔ R' y g) → repr L R → repr L R'.
Proof.
  intros H [H1 H2 H3]. split; [done| |].
  - eapply Forall_impl; [exact H2|]. intros n Hn. unfold set_ok in *. destruct (nb_set n); [|done].
    destruct Hn as (? & ? & Hn). split_and!; try done. intros g. by rewrite Hn, H.
  - intros y. rewrite H3. split; intros [g Hg]; exists g; by apply H.
Qed.

Lemma sorted_lookup L i j x y : StronglySorted before L → L !! i = Some x → L !! j = Some y → i < j → (nb_b x < nb_b y)%Z.
Proof.
  intros Hs. revert i j. induction Hs as [|z L Hs IH Hz]; intros i j Hi Hj Hij; [done|].
  destruct j as [|j]; [lia|]. destruct i as [|i]; cbn in Hi, Hj.
  - injection Hi as <-. rewrite Forall_lookup in Hz. by apply (Hz j).
  - apply (IH i j); [done|done|lia].
Qed.

Lemma search_ok b n L : laid n L → StronglySorted before L → ∀ fuel i j, j - i ≤ fuel → i ≤ j → j ≤ length L →
  (∀ k x, L !! k = Some x → k < i → (nb_b x < b)%Z) → (∀ k x, L !! k = Some x → j ≤ k → (b < nb_b x)%Z) →
  ∃ r, search fuel b (ns_arr n) i j = Some r ∧ r ≤ length L ∧
    ∀ k x, L !! k = Some x → (k < r → (nb_b x < b)%Z) ∧ (r < k → (b < nb_b x)%Z) ∧ (k = r → (b ≤ nb_b x)%Z).
Proof.
  intros Hl Hs. induction fuel as [|fuel IH]; intros i j Hf Hij Hj Hlo Hhi; cbn [search].
  - rewrite decide_False by lia. exists i. split; [done|]. split; [lia|]. intros k x Hk. split_and!; intros; [by apply (Hlo k)|..]; assert (b < nb_b x)%Z by (apply (Hhi k); [done|lia]); lia.
  - destruct (decide (i < j)) as [Hlt|Hge].
    + set (p := (i + j) / 2). assert (i ≤ p ∧ p < j) as [Hp1 Hp2].
      { unfold p. split; [apply Nat.div_le_lower_bound; lia|apply Nat.div_lt_upper_bound; lia]. }
      destruct (lookup_lt_is_Some_2 L p) as [x Hx]; [lia|]. rewrite (ld_arr _ _ Hl _ _ Hx). cbn [mbind option_bind].
      destruct (decide (nb_b x < b)%Z).
      * apply IH; [lia..| |done]. intros k y Hk Hkp. destruct (decide (k = p)) as [->|]; [congruence|]. pose proof (sorted_lookup L k p y x Hs Hk Hx). lia.
      * destruct (decide (b < nb_b x)%Z).
        -- apply IH; [lia..|done|]. intros k y Hk Hkp. destruct (decide (k = p)) as [->|]; [congruence|]. pose proof (sorted_lookup L p k x y Hs Hx Hk). lia.
        -- exists p. split; [done|]. split; [lia|]. intros k y Hk. split_and!; intros Hkp.
           ++ pose proof (sorted_lookup L k p y x Hs Hk Hx). lia.
           ++ pose proof (sorted_lookup L p k x y Hs Hx Hk). lia.
           ++ subst k. assert (y = x) as -> by congruence. lia.
    + exists i. split; [done|]. split; [lia|]. intros k x Hk. split_and!; intros; [by apply (Hlo k)|..]; assert (b < nb_b x)%Z by (apply (Hhi k); [done|lia]); lia.
Qed.

Lemma clear_from_ok m k arr : k + m ≤ length arr → ∃ arr', clear_from m k arr = Some arr' ∧ length arr' = length arr ∧ ∀ i, i < k → arr' !! i = arr !! i.
Proof.
  revert k arr. induction m as [|m IH]; intros k arr H; cbn [clear_from].
  - by exists arr.
  - rewrite upd_Some by lia. cbn [mbind option_bind]. destruct (IH (S k) (<[k:=None]> arr)) as (arr' & E & El & H'); [rewrite insert_length; lia|].
    exists arr'. split; [done|]. rewrite insert_length in El. split; [done|]. intros i Hi. rewrite H' by lia. by rewrite list_lookup_insert_ne by lia.
Qed.
Lemma expand_ok n bns L o : laid bns L → length L ≤ n → 0 < n → ∃ ret bns' o', nbrs_expand n bns o = Some (ret, bns', o') ∧ (o = [] → o' = []) ∧
  ((ret = Z.of_nat n ∧ ns_cpty bns' = n ∧ laid bns' L) ∨ (ret = (-1)%Z ∧ o ≠ [])).
Proof.
  intros [H1 H2 H3 H4 H5] Hn Hn0. unfold nbrs_expand. destruct (next_alloc o) as [ok o'] eqn:Eo. destruct ok.
  - destruct (clear_from_ok (n - ns_num bns) (ns_num bns) (realloc_arr None n (ns_arr bns))) as (arr & E & El & Ha).
    { rewrite realloc_arr_length. lia. }
    rewrite E. cbn [mbind option_bind]. eexists _, _, _. split; [done|]. split; [intros ->; cbn in Eo; congruence|]. left. split; [lia|]. split; [done|].
    rewrite realloc_arr_length in El. split; cbn; try done; try lia. intros i x Hi. pose proof (lookup_lt_Some _ _ _ Hi).
    rewrite Ha by lia. rewrite realloc_arr_lookup by lia. by apply H5.
  - eexists _, _, _. split; [done|]. assert (o ≠ []) by (by intros ->). split; [done|]. by right.
Qed.

Lemma allocate_ok o x o' : nbr_allocate expct o = (x, o') → (o = [] → o' = [] ∧ is_Some x) ∧
  match x with
  | Some n => match nb_set n with Some t => (0 < expct)%Z ∧ (∃ p, winv h t p) ∧ members (hs_s t) = [] | None => (expct ≤ 0)%Z end
  | None => True
  end.
Proof.
  unfold nbr_allocate. destruct (next_alloc o) as [[] o1] eqn:E1.
  - destruct (decide (0 < expct)%Z).
    + destruct (allocate (Z.to_nat expct) o1) as [[t|] o2] eqn:E2; intros [= <- <-].
      * split.
        -- intros ->. cbn in E1. injection E1 as <-. cbn in E2. injection E2 as _ <-. done.
        -- cbn [nb_set]. destruct (allocate_winv h _ _ _ _ Hexpct E2) as (p & Hw & Hv & _). split; [done|]. split; [by exists p|]. by rewrite members_visible.
      * split; [|done]. intros ->. cbn in E1. injection E1 as <-. done.
    + intros [= <- <-]. split; [|cbn; lia]. intros ->. cbn in E1. injection E1 as <-. by split.
  - intros [= <- <-]. split; [|done]. intros ->. done.
Qed.

Lemma insert_fconn_ok (R : Z → Z → Prop) n f o : (0 ≤ f)%Z → set_ok R n → ∃ ret n' o', nbr_insert_fconn h f n o = Some (ret, n', o') ∧ nb_b n' = nb_b n ∧
  (o = [] → (0 ≤ ret)%Z ∧ o' = []) ∧ ((0 ≤ ret)%Z → set_ok (λ y g, R y g ∨ (y = nb_b n ∧ g = f)) n').
Proof.
  intros Hf Hs. unfold nbr_insert_fconn, set_ok in *. destruct (nb_set n) as [t|] eqn:En.
  - destruct Hs as (He & [p Hw] & Hm). destruct (insert_correct h h_lt f t p o Hw Hf) as (r & t' & o' & p' & E & Hw' & Hr & Ho & _).
    rewrite E. cbn [mbind option_bind]. eexists _, _, _. split; [done|]. split; [done|]. split; [intros Eo; destruct (Ho Eo) as [-> ->]; done|].
    intros Hge. cbn [nb_set nb_b]. split; [done|]. split; [by exists p'|]. intros g. destruct Hr as [[-> Hr]|[-> _]]; [|done]. rewrite Hr, Hm. naive_solver.
  - eexists _, _, _. split; [done|]. split; [done|]. split; [done|]. intros _. by rewrite En.
Qed.

Definition more (R : Z → Z → Prop) (b f : Z) (y g : Z) : Prop := R y g ∨ (y = b ∧ g = f).

Lemma set_ok_other R b f n : nb_b n ≠ b → set_ok R n → set_ok (more R b f) n.
Proof. unfold set_ok, more. destruct (nb_set n); [|done]. intros Hn (? & ? & H). split_and!; try done. intros g. rewrite H. naive_solver. Qed.

Lemma insert_sorted L i n : i ≤ length L → StronglySorted before L → (∀ k x, L !! k = Some x → (k < i → before x n) ∧ (i ≤ k → before n x)) →
  StronglySorted before (take i L ++ n :: drop i L).
Proof.
  intros Hi Hs. revert i Hi. induction Hs as [|x L Hs IH Hx]; intros i Hi H.
  - rewrite take_nil, drop_nil. repeat constructor.
  - destruct i as [|i].
    + cbn. constructor; [by constructor|]. apply Forall_lookup. intros k y Hk. apply (H k y Hk). lia.
    + cbn. constructor.
      * apply IH; [cbn in Hi; lia|]. intros k y Hk. destruct (H (S k) y Hk) as [H1 H2]. split; intros; [apply H1|apply H2]; lia.
      * apply Forall_app. split; [|apply Forall_cons; split].
        -- by apply Forall_take.
        -- apply (H 0 x eq_refl). lia.
        -- by apply Forall_drop.
Qed.
Lemma before_trans a b c : before a b → before b c → before a c.
Proof. unfold before. lia. Qed.
Lemma replace_sorted L i n n' : L !! i = Some n → nb_b n' = nb_b n → StronglySorted before L → StronglySorted before (<[i := n']> L).
Proof.
  intros Hi Hn Hs. revert i Hi. induction Hs as [|x L Hs IH Hx]; intros i Hi; [done|]. destruct i as [|i]; cbn in *.
  - injection Hi as ->. constructor; [done|]. eapply Forall_impl; [exact Hx|]. unfold before. intros. by rewrite Hn.
  - constructor; [by apply IH|]. apply Forall_insert; [done|]. rewrite Forall_lookup in Hx. unfold before. rewrite Hn. by apply (Hx i).
Qed.

Lemma add_ok bns L R i ret b f o : laid bns L → repr L R → (0 ≤ f)%Z → (0 ≤ ret)%Z → i ≤ length L →
  (∀ k x, L !! k = Some x → (k < i → (nb_b x < b)%Z) ∧ (i ≤ k → (b < nb_b x)%Z)) →
  ∃ ret' bns' o', add_neighbour h i ret b f expct bns o = Some (ret', bns', o') ∧ (o = [] → (0 ≤ ret')%Z ∧ o' = []) ∧
    ((0 ≤ ret')%Z → ∃ L', laid bns' L' ∧ repr L' (more R b f)).
Proof.
  intros Hl Hr Hf Hret Hi Hb. unfold add_neighbour.
  assert (∃ ret1 bns1 o1, (if decide (ns_num bns = ns_cpty bns) then
      if decide (1 ≤ ns_cpty bns) then nbrs_expand (2 * ns_cpty bns) bns o else None
    else Some (ret, bns, o)) = Some (ret1, bns1, o1) ∧ (o = [] → o1 = []) ∧
    (((0 ≤ ret1)%Z ∧ laid bns1 L ∧ length L < ns_cpty bns1) ∨ ((ret1 < 0)%Z ∧ o ≠ []))) as (ret1 & bns1 & o1 & -> & Ho1 & Hc).
  { pose proof Hl as [L1 L2 L3 L4 L5]. destruct (decide (ns_num bns = ns_cpty bns)).
    - rewrite decide_True by lia. destruct (expand_ok (2 * ns_cpty bns) bns L o Hl) as (r & n' & o' & E & Ho & [(-> & Hc & Hl')|[-> Hn]]); [lia..| |].
      + eexists _, _, _. split; [exact E|]. split; [done|]. left. split; [lia|]. split; [done|lia].
      + eexists _, _, _. split; [exact E|]. split; [done|]. right. split; [lia|done].
    - eexists _, _, _. split; [done|]. split; [done|]. left. split; [done|]. split; [done|lia]. }
  cbn [mbind option_bind]. destruct Hc as [(Hr1 & Hl1 & Hlt)|[Hr1 Hne]].
  2: { rewrite decide_False by lia. eexists _, _, _. split; [done|]. split; [done|]. lia. }
  rewrite decide_True by done. pose proof Hl1 as [L1 L2 L3 L4 L5].
  assert (∃ arr, (if decide (i < ns_num bns1) then src ← slice (ns_arr bns1) i (ns_num bns1 - i); memcpy (ns_arr bns1) (i + 1) src
      else Some (ns_arr bns1)) = Some arr ∧ length arr = length (ns_arr bns1) ∧
      (∀ k x, L !! k = Some x → (k < i → arr !! k = Some (Some x)) ∧ (i ≤ k → arr !! S k = Some (Some x)))) as (arr & -> & Hla & Harr).
  { destruct (decide (i < ns_num bns1)).
    - rewrite (slice_pointwise _ (Some <$> drop i L)).
      + cbn [mbind option_bind]. destruct (memcpy (ns_arr bns1) (i + 1) (Some <$> drop i L)) as [arr|] eqn:Em.
        * exists arr. split; [done|]. split; [by eapply memcpy_length|]. intros k x Hk. split; intros Hki.
          -- rewrite (memcpy_lookup_lt _ _ _ _ _ Em) by lia. by apply L5.
          -- pose proof (lookup_lt_Some _ _ _ Hk). assert (Hmid := memcpy_lookup_mid _ _ _ _ (k - i) Em). rewrite fmap_length, drop_length in Hmid. replace (i + 1 + (k - i)) with (S k) in Hmid by lia.
             rewrite Hmid by lia. rewrite list_lookup_fmap, lookup_drop. replace (i + (k - i)) with k by lia. by rewrite Hk.
        * rewrite memcpy_Some in Em; [done|]. rewrite fmap_length, drop_length. lia.
      + rewrite fmap_length, drop_length. lia.
      + intros k Hk. rewrite list_lookup_fmap, lookup_drop. destruct (lookup_lt_is_Some_2 L (i + k)) as [x Hx]; [lia|]. rewrite Hx. by apply L5.
    - exists (ns_arr bns1). split; [done|]. split; [done|]. intros k x Hk. split; intros; [by apply L5|]. pose proof (lookup_lt_Some _ _ _ Hk). lia. }
  cbn [mbind option_bind]. destruct (nbr_allocate expct o1) as [x o2] eqn:Ea. destruct (allocate_ok _ _ _ Ea) as [Hao Hx].
  rewrite upd_Some by lia. cbn [mbind option_bind]. destruct x as [n0|].
  2: { eexists _, _, _. split; [done|]. split; [intros ->; destruct (Hao (Ho1 eq_refl)) as [_ [? ?]]; done|]. lia. }
  assert (Hs0 : set_ok (λ y g, False) n0).
  { unfold set_ok. destruct (nb_set n0); [|done]. destruct Hx as (? & ? & Hm). split_and!; try done. intros g. rewrite Hm. by rewrite elem_of_nil. }
  destruct (insert_fconn_ok _ n0 f o2 Hf Hs0) as (r & n1 & o3 & E & En1 & Ho & Hs1). rewrite E. cbn [mbind option_bind].
  rewrite upd_Some by (rewrite insert_length; lia). cbn [mbind option_bind]. eexists _, _, _. split; [done|].
  split; [intros ->; destruct (Hao (Ho1 eq_refl)) as [-> _]; by apply Ho|].
  intros Hr2. specialize (Hs1 Hr2). rewrite list_insert_insert. set (n2 := Nbr b (nb_set n1)).
  exists (take i L ++ n2 :: drop i L). assert (Hlen : length (take i L ++ n2 :: drop i L) = S (length L)) by (rewrite app_length; cbn; rewrite take_length, drop_length; lia). split.
  - split; cbn [ns_num ns_cpty ns_arr].
    + rewrite Hlen. lia.
    + rewrite insert_length. lia.
    + lia.
    + lia.
    + intros k y Hk. destruct (decide (k = i)) as [->|Hki].
      * rewrite list_lookup_insert by lia. rewrite lookup_app_r in Hk by (rewrite take_length; lia). rewrite take_length, Nat.min_l, Nat.sub_diag in Hk by lia. cbn in Hk. congruence.
      * rewrite list_lookup_insert_ne by done. destruct (decide (k < i)).
        -- rewrite lookup_app_l in Hk by (rewrite take_length; lia). rewrite lookup_take in Hk by lia. by apply (Harr k).
        -- rewrite lookup_app_r in Hk by (rewrite take_length; lia). rewrite take_length, Nat.min_l in Hk by lia. destruct (k - i) as [|d] eqn:Ed; [lia|]. change (drop i L !! d = Some y) in Hk.
           rewrite lookup_drop in Hk. destruct (Harr _ _ Hk) as [_ H2]. replace k with (S (i + d)) by lia. apply H2. lia.
  - destruct Hr as [R1 R2 R3].
    assert (Hnob : ∀ n, n ∈ L → nb_b n ≠ b). { intros n Hn. apply elem_of_list_lookup in Hn as [k Hk]. destruct (Hb k n Hk) as [B1 B2]. destruct (decide (k < i)); [specialize (B1 ltac:(lia))|specialize (B2 ltac:(lia))]; lia. }
    assert (HRb : ∀ g, ¬ R b g). { intros g Hg. destruct (proj2 (R3 b) (ex_intro _ g Hg)) as (n & Hn & E'). by apply (Hnob n Hn). }
    split.
    + apply insert_sorted; [done|done|]. intros k y Hk. by apply (Hb k).
    + rewrite Forall_app, Forall_cons. assert (HF : Forall (set_ok (more R b f)) L). { rewrite Forall_forall in R2 |- *. intros n Hn. apply set_ok_other; [by apply Hnob|by apply R2]. }
      split; [by apply Forall_take|]. split; [|by apply Forall_drop]. unfold set_ok in Hs1 |- *. cbn [nb_set n2 nb_b]. destruct (nb_set n1); [|done].
      destruct Hs1 as (S1 & S2 & S3). split; [done|]. split; [done|]. intros g. rewrite S3. unfold more. split; [|intros [Hg|[_ ->]]].
      * intros [[]|[_ ->]]. by right.
      * by apply HRb in Hg.
      * right. split; done.
    + intros y. unfold more. split.
      * intros (n & Hn & <-). apply elem_of_app in Hn as [Hn|Hn]; [|apply elem_of_cons in Hn as [->|Hn]].
        -- apply elem_of_take in Hn as (k & Hk & _). destruct (proj1 (R3 (nb_b n))) as [g Hg]; [exists n; split; [by eapply elem_of_list_lookup_2|done]|]. exists g. by left.
        -- exists f. by right.
        -- apply elem_of_list_lookup in Hn as [k Hk]. rewrite lookup_drop in Hk. destruct (proj1 (R3 (nb_b n))) as [g Hg]; [exists n; split; [by eapply elem_of_list_lookup_2|done]|]. exists g. by left.
      * intros [g [Hg|[-> _]]].
        -- destruct (proj2 (R3 y) (ex_intro _ g Hg)) as (n & Hn & E'). exists n. split; [|done]. rewrite <- (take_drop i L) in Hn. apply elem_of_app in Hn as [Hn|Hn]; apply elem_of_app; [by left|right; by right].
        -- exists n2. split; [|done]. apply elem_of_app. right. by left.
Qed.

Lemma insert_neighbour_ok bns L R b f o : laid bns L → repr L R → (0 ≤ f)%Z →
  ∃ ret bns' o', insert_neighbour h b f expct bns o = Some (ret, bns', o') ∧ (o = [] → (0 ≤ ret)%Z ∧ o' = []) ∧
    ((0 ≤ ret)%Z → ∃ L', laid bns' L' ∧ repr L' (more R b f)).
Proof.
  intros Hl Hr Hf. pose proof Hl as [L1 L2 L3 L4 L5]. unfold insert_neighbour. rewrite decide_False; [|intros [E|E]; [rewrite E in L2; cbn in L2|]; lia].
  cbn [mbind option_bind]. rewrite decide_True by done.
  destruct (search_ok b bns L Hl (rp_sorted _ _ Hr) (ns_num bns) 0 (ns_num bns)) as (i & E & Hi & Hk); [lia|lia|lia|intros; lia| |].
  { intros k x Hx. pose proof (lookup_lt_Some _ _ _ Hx). lia. }
  rewrite E. cbn [mbind option_bind]. rewrite L1.
  assert (Hadd : (∀ x, L !! i = Some x → nb_b x ≠ b) → ∃ ret' bns' o', add_neighbour h i 1 b f expct bns o = Some (ret', bns', o') ∧ (o = [] → (0 ≤ ret')%Z ∧ o' = []) ∧
    ((0 ≤ ret')%Z → ∃ L', laid bns' L' ∧ repr L' (more R b f))).
  { intros Hne. apply (add_ok bns L R); try done. intros k x Hx. destruct (Hk k x Hx) as (K1 & K2 & K3). split; [done|]. intros Hik.
    destruct (decide (k = i)) as [->|]; [|apply K2; lia]. specialize (K3 eq_refl). specialize (Hne _ Hx). lia. }
  destruct (decide (i < length L)) as [Hlt|Hge].
  2: { cbn [mbind option_bind]. apply Hadd. intros x Hx. apply lookup_lt_Some in Hx. lia. }
  destruct (lookup_lt_is_Some_2 L i Hlt) as [x Hx]. rewrite (L5 _ _ Hx). cbn [mbind option_bind].
  destruct (decide (nb_b x = b)) as [Hb|Hb]; [|apply Hadd; intros y Hy; congruence].
  destruct Hr as [R1 R2 R3]. assert (Hsx : set_ok R x) by (rewrite Forall_lookup in R2; by eapply R2).
  destruct (insert_fconn_ok R x f o Hf Hsx) as (r & x' & o' & E' & Ex & Ho & Hs'). rewrite E'. cbn [mbind option_bind].
  rewrite upd_Some by lia. cbn [mbind option_bind]. eexists _, _, _. split; [done|]. split; [done|]. intros Hr0. specialize (Hs' Hr0).
  exists (<[i := x']> L). split.
  - split; cbn [ns_num ns_cpty ns_arr]; rewrite ?insert_length; try done; try lia. intros k y Hy. destruct (decide (k = i)) as [->|].
    + rewrite list_lookup_insert in Hy by lia. injection Hy as <-. by rewrite list_lookup_insert by lia.
    + rewrite list_lookup_insert_ne in Hy by done. rewrite list_lookup_insert_ne by done. by apply L5.
  - split.
    + by eapply replace_sorted.
    + apply Forall_lookup. intros k y Hy. destruct (decide (k = i)) as [->|].
      * rewrite list_lookup_insert in Hy by lia. injection Hy as <-. unfold more. by rewrite <- Hb.
      * rewrite list_lookup_insert_ne in Hy by done. apply set_ok_other; [|rewrite Forall_lookup in R2; by eapply R2]. intros Hyb.
        destruct (decide (k < i)); [pose proof (sorted_lookup L k i y x R1 Hy Hx)|pose proof (sorted_lookup L i k x y R1 Hx Hy)]; lia.
    + intros y. rewrite <- Hb. unfold more. split.
      * intros (n & Hn & <-). apply elem_of_list_lookup in Hn as [k Hn]. destruct (decide (k = i)) as [->|].
        -- rewrite list_lookup_insert in Hn by lia. injection Hn as <-. exists f. right. by rewrite Ex.
        -- rewrite list_lookup_insert_ne in Hn by done. destruct (proj1 (R3 (nb_b n))) as [g Hg]; [exists n; split; [by eapply elem_of_list_lookup_2|done]|]. exists g. by left.
      * intros [g [Hg|[-> _]]].
        -- destruct (proj2 (R3 y) (ex_intro _ g Hg)) as (n & Hn & E1). apply elem_of_list_lookup in Hn as [k Hn]. destruct (decide (k = i)) as [->|].
           ++ exists x'. split; [|congruence]. apply elem_of_list_lookup_2 with i. by apply list_lookup_insert.
           ++ exists n. split; [|done]. apply elem_of_list_lookup_2 with k. by rewrite list_lookup_insert_ne.
        -- exists x'. split; [|done]. apply elem_of_list_lookup_2 with i. by apply list_lookup_insert.
Qed.

(** ** The loop over the fine faces *)
Variables (nc nf : nat) (p nb : list Z).
Hypothesis Hin : valid_input nc nf p nb.

(** Fine face [f] lies between block [b] and [y], in the order of the code. *)
Definition keyed (f : nat) (b : nat) (y : Z) : Prop := (y = -1 ∨ Z.of_nat b < y)%Z ∧ between p nb f (Z.of_nat b) y.

Lemma block_of_ok c x : block_of p c = Some x ↔ block_at p c x.
Proof. unfold block_of, block_at. destruct (decide (0 ≤ c)%Z); split; [intros ?; by right|intros [[??]|[??]]; [lia|done]|intros [= <-]; left; lia|intros [[? ->]|[??]]; [done|lia]]. Qed.
Lemma block_at_det c x y : block_at p c x → block_at p c y → x = y.
Proof. intros Hx Hy. apply block_of_ok in Hx, Hy. congruence. Qed.
Lemma block_at_total c : (c < Z.of_nat nc)%Z → ∃ x, block_at p c x ∧ ((c < 0 ∧ x = -1) ∨ (0 ≤ c ∧ 0 ≤ x))%Z.
Proof.
  intros Hc. destruct Hin as [H1 H2 H3 H4]. destruct (decide (0 ≤ c)%Z).
  - destruct (lookup_lt_is_Some_2 p (Z.to_nat c)) as [x Hx]; [lia|]. exists x. split; [by right|]. right. split; [done|]. rewrite Forall_lookup in H3. by eapply H3.
  - exists (-1)%Z. split; [left; lia|left; lia].
Qed.
Lemma between_sym f x y : between p nb f x y ↔ between p nb f y x.
Proof. unfold between. tauto. Qed.

(** The two blocks of a fine face as the code orders them. *)
Lemma face_cases f : f < nf → ∃ c1 c2 b1 b2, nb !! (2 * f) = Some c1 ∧ nb !! (2 * f + 1) = Some c2 ∧ block_of p c1 = Some b1 ∧ block_of p c2 = Some b2 ∧
  (∀ x y, sides p nb f x y ↔ x = b1 ∧ y = b2) ∧ (-1 ≤ b1 ∧ -1 ≤ b2 ∧ (0 ≤ b1 ∨ 0 ≤ b2))%Z ∧
  (0 ≤ b1 → b1 ∈ p)%Z ∧ (0 ≤ b2 → b2 ∈ p)%Z.
Proof.
  intros Hf. pose proof Hin as [H1 H2 H3 H4].
  destruct (lookup_lt_is_Some_2 nb (2 * f)) as [c1 E1]; [lia|]. destruct (lookup_lt_is_Some_2 nb (2 * f + 1)) as [c2 E2]; [lia|].
  destruct (H4 f c1 c2 E1 E2) as (B1 & B2 & Hor). destruct (block_at_total c1 B1) as (b1 & Hb1 & K1). destruct (block_at_total c2 B2) as (b2 & Hb2 & K2).
  exists c1, c2, b1, b2. split; [done|]. split; [done|]. split; [by apply block_of_ok|]. split; [by apply block_of_ok|].
  split; [|split; [lia|]].
  - intros x y. split.
    + intros (d1 & d2 & D1 & D2 & D3 & D4). assert (d1 = c1) as -> by congruence. assert (d2 = c2) as -> by congruence. split; by eapply block_at_det.
    + intros [-> ->]. by exists c1, c2.
  - split; intros Hge; [destruct Hb1 as [[??]|[_ Hb]]|destruct Hb2 as [[??]|[_ Hb]]]; try lia; by eapply elem_of_list_lookup_2.
Qed.

Definition seen (k b : nat) (y g : Z) : Prop := ∃ f, f < k ∧ g = Z.of_nat f ∧ keyed f b y.
Definition inv (k : nat) (bns : list (option nbrs)) : Prop :=
  ∃ Ls, Forall2 laid_opt bns Ls ∧ ∀ b L, Ls !! b = Some L → repr L (seen k b).

Lemma seen_S k b y g : seen (S k) b y g ↔ seen k b y g ∨ (g = Z.of_nat k ∧ keyed k b y).
Proof.
  unfold seen. split.
  - intros (f & Hf & -> & Hk). destruct (decide (f = k)) as [->|]; [by right|left]. exists f. split; [lia|done].
  - intros [(f & Hf & -> & Hk)|[-> Hk]]; [exists f|exists k]; (split; [lia|done]).
Qed.

Lemma derive_face_ok nblk k bns ret o : k < nf → Forall (λ x, x < Z.of_nat nblk)%Z p → length bns = nblk → inv k bns → (0 ≤ ret)%Z →
  ∃ ret' bns' o', derive_face h expct p nb k bns ret o = Some (ret', bns', o') ∧ length bns' = nblk ∧ (o = [] → (0 ≤ ret')%Z ∧ o' = []) ∧
    ((0 ≤ ret')%Z → inv (S k) bns').
Proof.
  intros Hk Hnb Hlen (Ls & HL & HR) Hret. destruct (face_cases k Hk) as (c1 & c2 & b1 & b2 & E1 & E2 & E3 & E4 & Hs & Hb & P1 & P2).
  unfold derive_face. rewrite E1. cbn [mbind option_bind]. rewrite E3. cbn [mbind option_bind]. rewrite E2. cbn [mbind option_bind]. rewrite E4. cbn [mbind option_bind].
  rewrite decide_True by lia.
  assert (∃ bi bo, (if decide (0 ≤ b1 ∧ 0 ≤ b2)%Z then (Z.min b1 b2, Z.max b1 b2) else if decide (0 ≤ b1)%Z then (b1, b2) else (b2, b1)) = (bi, bo) ∧
    (0 ≤ bi)%Z ∧ bi ∈ p ∧ (bi = bo ∨ bo = -1 ∨ bi < bo)%Z ∧ ((bi = b1 ∧ bo = b2) ∨ (bi = b2 ∧ bo = b1))) as (bi & bo & -> & Hbi & Hbp & Hord & Hpair).
  { destruct (decide (0 ≤ b1 ∧ 0 ≤ b2)%Z) as [[G1 G2]|].
    - exists (Z.min b1 b2), (Z.max b1 b2). split; [done|]. split; [lia|]. destruct (decide (b1 ≤ b2)%Z).
      + rewrite Z.min_l, Z.max_r by lia. split; [by apply P1|]. split; [lia|]. by left.
      + rewrite Z.min_r, Z.max_l by lia. split; [by apply P2|]. split; [lia|]. by right.
    - destruct (decide (0 ≤ b1)%Z); [exists b1, b2|exists b2, b1]; (split; [done|]); (split; [lia|]); (split; [first [apply P1; lia|apply P2; lia]|]); (split; [lia|]); [by left|by right]. }
  assert (Hbet : ∀ x y, between p nb k x y ↔ (x = bi ∧ y = bo) ∨ (x = bo ∧ y = bi)).
  { intros x y. unfold between. rewrite !Hs. destruct Hpair as [[-> ->]|[-> ->]]; tauto. }
  destruct (decide (bi ≠ bo)) as [Hne|Heq].
  2: { eexists _, _, _. split; [done|]. split; [done|]. split; [done|]. intros _. exists Ls. split; [done|]. intros b L HbL. apply (repr_ext _ (seen k b)); [|by apply HR].
       intros y g. rewrite seen_S. split; [by left|]. intros [?|[-> [Hy Hbt]]]; [done|]. exfalso. apply Hbet in Hbt. assert (bi = bo) by (destruct (decide (bi = bo)); [done|by destruct Heq]). lia. }
  assert (Hbilt : Z.to_nat bi < nblk). { rewrite Forall_forall in Hnb. specialize (Hnb bi Hbp). cbn in Hnb. lia. }
  destruct (lookup_lt_is_Some_2 bns (Z.to_nat bi)) as [x Hx]; [lia|]. rewrite Hx. cbn [mbind option_bind].
  destruct (Forall2_lookup_l _ _ _ _ _ HL Hx) as (L & HLb & Hxl).
  assert (∃ x1 o1, (match x with Some x => (Some x, o) | None => nbrs_allocate 1 o end) = (x1, o1) ∧ (o = [] → o1 = [] ∧ is_Some x1) ∧ match x1 with Some n => laid n L | None => True end)
    as (x1 & o1 & -> & Ho1 & Hx1).
  { destruct x as [n|]; [by exists (Some n), o; split_and!; eauto|]. cbn in Hxl. subst L. unfold nbrs_allocate. destruct (next_alloc o) as [[] o1] eqn:A1.
    - rewrite decide_True by lia. destruct (next_alloc o1) as [[] o2] eqn:A2.
      + eexists _, _. split; [done|]. split; [intros ->; cbn in A1; injection A1 as <-; cbn in A2; injection A2 as <-; split; [done|by eexists]|]. split; cbn; try done; lia.
      + eexists _, _. split; [done|]. split; [intros ->; cbn in A1; injection A1 as <-; done|done].
    - eexists _, _. split; [done|]. split; [intros ->; done|done]. }
  destruct x1 as [n|].
  2: { eexists _, _, _. split; [done|]. split; [done|]. split; [intros Ho; by destruct (Ho1 Ho) as [_ [??]]|]. lia. }
  destruct (insert_neighbour_ok n L _ bo (Z.of_nat k) o1 Hx1 (HR _ _ HLb)) as (r & n' & o' & E & Ho & Hok); [lia|]. rewrite E. cbn [mbind option_bind].
  rewrite upd_Some by lia. cbn [mbind option_bind]. eexists _, _, _. split; [done|]. split; [by rewrite insert_length|]. split; [intros Ho0; destruct (Ho1 Ho0) as [-> _]; by apply Ho|].
  intros Hr. destruct (Hok Hr) as (L' & Hl' & Hr'). exists (<[Z.to_nat bi := L']> Ls). split; [by apply Forall2_insert|].
  intros b M HM. destruct (decide (b = Z.to_nat bi)) as [->|Hnb'].
  - rewrite list_lookup_insert in HM by (by eapply lookup_lt_Some). injection HM as <-. apply (repr_ext _ (more (seen k (Z.to_nat bi)) bo (Z.of_nat k))); [|exact Hr'].
    intros y g. rewrite seen_S. unfold more, keyed. rewrite Z2Nat.id by lia. split; intros [?|[H5 H6]]; [by left|right|by left|right].
    + split; [done|]. subst y. split; [lia|]. apply Hbet. by left.
    + split; [|done]. destruct H6 as [H6 H7]. apply Hbet in H7. lia.
  - rewrite list_lookup_insert_ne in HM by done. apply (repr_ext _ (seen k b)); [|by apply HR]. intros y g. rewrite seen_S. split; [by left|].
    intros [?|[-> [H5 H6]]]; [done|]. exfalso. apply Hbet in H6. lia.
Qed.

Lemma derive_loop_ok nblk m k bns ret o : k + m = nf → Forall (λ x, x < Z.of_nat nblk)%Z p → length bns = nblk → ((0 ≤ ret)%Z → inv k bns) →
  ∃ ret' bns' o', derive_loop h expct p nb m k bns ret o = Some (ret', bns', o') ∧ length bns' = nblk ∧ ((0 ≤ ret)%Z → o = [] → (0 ≤ ret')%Z ∧ o' = []) ∧
    ((0 ≤ ret')%Z → inv nf bns').
Proof.
  intros Hk Hnb. revert k bns ret o Hk. induction m as [|m IH]; intros k bns ret o Hk Hl Hi; cbn [derive_loop].
  - eexists _, _, _. split; [done|]. split; [done|]. split; [done|]. replace nf with k by lia. done.
  - destruct (decide (0 ≤ ret)%Z).
    + destruct (derive_face_ok nblk k bns ret o) as (r & bns1 & o1 & E & L1 & Ho1 & I1); [lia|done|done|auto|done|]. rewrite E. cbn [mbind option_bind].
      destruct (IH (S k) bns1 r o1) as (r2 & bns2 & o2 & E2 & L2 & Ho2 & I2); [lia|done|done|]. exists r2, bns2, o2. split; [done|]. split; [done|]. split; [|done].
      intros _ Ho. destruct (Ho1 Ho) as [? ->]. by apply Ho2.
    + eexists _, _, _. split; [done|]. split; [done|]. split; [done|]. done.
Qed.
End coarse.
