(** Correctness proof of the depth first search. *)
From stdpp Require Import relations.
From Verif Require Import Base CsrSpec CsrProof DfsModel.

Lemma sum_list_insert (l : list nat) i x y :
  l !! i = Some x → sum_list (<[i:=y]> l) + x = sum_list l + y.
Proof.
  revert i. induction l as [|z l IH]; intros [|i] H; simplify_eq/=; [lia|].
  specialize (IH i H). lia.
Qed.

Section dfs.
Variable rows : list (list nat).
Variables ia ja : list nat.
Notation size := (length rows).
Hypothesis Hrows : holds_rows ia ja rows.

Definition row (u : nat) : list nat := default [] (rows !! u).
(** The edge relation of the graph. *)
Definition E (u v : nat) : Prop := v ∈ row u.
Hypothesis Hrange : ∀ u v, E u v → v < size.
(** A self loop is the first entry of its row. *)
Hypothesis Hself : ∀ u t, row u !! t = Some u → t = 0.

Lemma E_dom u v : E u v → u < size.
Proof.
  unfold E, row. destruct (rows !! u) eqn:H; simpl.
  - intros _. by eapply lookup_lt_Some.
  - intros H'. by apply elem_of_nil in H'.
Qed.

Lemma row_pos u : u < size → ∃ b, ia !! u = Some b ∧ ia !! S u = Some (b + length (row u)) ∧
  b + length (row u) ≤ length ja ∧ ∀ t, t < length (row u) → ja !! (b + t) = row u !! t.
Proof.
  intros Hu. destruct (lookup_lt_is_Some_2 rows u Hu) as [r Hr].
  pose proof (holds_rows_unique _ _ _ Hrows) as [Ei Ej].
  destruct (starts_rows 0 [] rows u r eq_refl Hr) as (b & Hb & He & Hs & Hle).
  unfold row. rewrite Hr. simpl. exists b. rewrite Ei, Ej. split_and!; [done|done|done|].
  intros t Ht. by apply (slice_lookup _ _ _ _ t Hs).
Qed.

Lemma ja_range p v : ja !! p = Some v → v < size.
Proof.
  intros Hp. pose proof (holds_rows_unique _ _ _ Hrows) as [_ Ej]. rewrite Ej in Hp.
  apply elem_of_list_lookup_2 in Hp. rewrite elem_of_list_In, in_concat in Hp.
  destruct Hp as (r & Hr & Hv). rewrite <- elem_of_list_In in Hr. rewrite <- elem_of_list_In in Hv.
  apply elem_of_list_lookup in Hr as [u Hu].
  apply (Hrange u). unfold E, row. by rewrite Hu.
Qed.

Lemma elem_of_not_nil (l : list nat) x : x ∈ l → l ≠ [].
Proof. intros H ->. by apply elem_of_nil in H. Qed.

Lemma nnz_ge_size : (∀ v, v < size → row v ≠ []) → size ≤ length ja.
Proof.
  intros H. pose proof (holds_rows_unique _ _ _ Hrows) as [_ ->].
  assert (G : ∀ l : list (list nat), (∀ v r, l !! v = Some r → r ≠ []) → length l ≤ length (concat l)).
  { induction l as [|r l IH]; intros Hl; simpl; [lia|]. rewrite app_length.
    pose proof (Hl 0 r eq_refl) as Hr. destruct r; [done|].
    specialize (IH (λ v, Hl (S v))). simpl. lia. }
  apply G. intros v r Hr. pose proof (lookup_lt_Some _ _ _ Hr) as Hv. specialize (H v Hv).
  unfold row in H. by rewrite Hr in H.
Qed.

(** ** One search from a seed *)
Section seed.
Variable i ncol : nat.       (* seed and number of colours so far *)
Variable color0 : list Z.    (* colours before the search *)
Hypothesis Hi : i < size.
Hypothesis Hi0 : color0 !! i = Some unvisited.
(** Coloured vertices before the search. *)
Hypothesis Hbelow : ∀ u x, u < i → color0 !! u = Some x → (0 ≤ x)%Z.
Hypothesis Hvals : ∀ u x, color0 !! u = Some x → x = unvisited ∨ (0 ≤ x < Z.of_nat ncol)%Z.
Hypothesis Hl0 : length color0 = size.

(** Edges to vertices that had no colour before the search. *)
Definition E0 (u v : nat) : Prop := E u v ∧ color0 !! v = Some unvisited.

(** Vertices reached from the seed were uncoloured. *)
Lemma reach_uncoloured v : rtc E0 i v → v < size ∧ color0 !! v = Some unvisited.
Proof.
  intros H. apply rtc_inv_r in H as [<-|(y & _ & Hy & Hv)]; [done|].
  split; [by eapply Hrange|done].
Qed.

(** Facts common to both phases. *)
Record common (S : list nat) (s : dfs_state) : Prop := {
  cm_lw : length (d_work s) = 2 * size;
  cm_lc : length (d_color s) = size;
  cm_sp : length S = d_sp s;
  cm_stack : ∀ j x, S !! j = Some x → d_work s !! (d_sp s - 1 - j) = Some x;
  cm_reach : ∀ v, v ∈ S → rtc E0 i v;
  cm_vals : ∀ v x, d_color s !! v = Some x → x = unvisited ∨ x = visited ∨ (0 ≤ x ≤ Z.of_nat ncol)%Z;
  cm_visited : ∀ v, d_color s !! v = Some visited → v ∈ S;
  cm_ncol : ∀ v, d_color s !! v = Some (Z.of_nat ncol) → rtc E0 i v;
  cm_done : ∀ v x, d_color s !! v = Some x → (0 ≤ x)%Z → d_work s !! (size + v) = Some 0;
  cm_old : ∀ v x, (0 ≤ x < Z.of_nat ncol)%Z → d_color s !! v = Some x ↔ color0 !! v = Some x;
  cm_seed : d_color s !! i ≠ Some unvisited;
}.

(** Phase A: no overflow of the stack. *)
Record phA (S : list nat) (s : dfs_state) : Prop := {
  pa_cm : common S s;
  pa_le : d_sp s ≤ size;
  pa_shape : NoDup S ∨ ∃ c S', S = c :: c :: S' ∧ NoDup (c :: S') ∧ d_work s !! (size + c) = Some 0;
  pa_last : S ≠ [] → list.last S = Some i;
  pa_cnt : ∀ v, v < size → ∃ k, d_work s !! (size + v) = Some k ∧ k ≤ length (row v);
  pa_tail : ∀ v, v ∈ tail S → d_color s !! v = Some visited;
  pa_nonempty : ∀ v, v ∈ tail S → row v ≠ [];
  pa_edges : ∀ v k t u, d_work s !! (size + v) = Some k → k ≤ t → row v !! t = Some u →
      u ∈ S ∨ d_color s !! u ≠ Some unvisited;
}.

(** Phase B: the stack held all vertices and one extra entry; nothing is
    unvisited any more, and the counter of vertex 0 may have been overwritten. *)
Record phB (S : list nat) (s : dfs_state) : Prop := {
  pb_cm : common S s;
  pb_i : i = 0;
  pb_le : d_sp s ≤ size + 1;
  pb_top : d_sp s = size + 1 → ∃ c S', S = c :: c :: S' ∧ d_work s !! (size + c) = Some 0;
  pb_all : ∀ v, d_color s !! v ≠ Some unvisited;
  pb_reach : ∀ v, v < size → rtc E0 i v;
  pb_cnt : ∀ v, v < size → ∃ k, d_work s !! (size + v) = Some k ∧
      (k ≤ length (row v) ∨ (v = 0 ∧ k ≤ length ja));
}.

Definition cnts (s : dfs_state) : nat := sum_list (drop size (d_work s)).

Lemma cnts_upd work sp color v k k' :
  length work = 2 * size → v < size → work !! (size + v) = Some k →
  cnts (DS (<[size + v:=k']> work) sp color) + k = cnts (DS work sp color) + k'.
Proof.
  intros Hl Hv Hk. unfold cnts. simpl. rewrite drop_insert_le by lia.
  replace (size + v - size) with v by lia.
  apply sum_list_insert. rewrite lookup_drop. done.
Qed.

Lemma phB_step S s :
  phB S s → S ≠ [] →
  ∃ S' s', dfs_step size ia ja ncol s = Some s' ∧ phB S' s' ∧
    cnts s' + d_sp s' < cnts s + d_sp s.
Proof.
  intros HB Hne. destruct HB as [HC H0 Hle Htop Hall Hreach Hcnt].
  destruct HC as [Hlw Hlc Hsp Hst HreS Hv Hvis Hnc Hdone Hold Hseed].
  destruct s as [work sp color]. simpl in *.
  destruct S as [|c S]; [done|]. simpl in Hsp.
  pose proof (Hst 0 c eq_refl) as Hc. rewrite Nat.sub_0_r in Hc.
  pose proof (HreS c ltac:(left)) as Hrc.
  destruct (reach_uncoloured c Hrc) as [Hcs Hc0].
  destruct (Hcnt c Hcs) as (k & Hk & Hkb).
  rewrite Hc. cbn [mbind option_bind]. rewrite Hk. cbn [mbind option_bind].
  case_decide as Hk0.
  - (* look at the next child *)
    assert (Hnt : sp ≠ size + 1).
    { intros Ht. destruct (Htop Ht) as (c' & S' & [= -> ->] & Hz). rewrite Hk in Hz. simplify_eq; lia. }
    destruct (row_pos c Hcs) as (b & Hb & _ & Hbl & Hrow).
    rewrite Hb. cbn [mbind option_bind].
    assert (Hin : b + k - 1 < length ja).
    { destruct Hkb as [Hkb|[-> Hkb]]; [lia|].
      destruct Hrows as (_ & E0 & _). rewrite E0 in Hb. simplify_eq; lia. }
    destruct (lookup_lt_is_Some_2 ja _ Hin) as [child Hch]. rewrite Hch. cbn [mbind option_bind].
    rewrite (upd_Some work) by lia. cbn [mbind option_bind].
    pose proof (ja_range _ _ Hch) as Hchs.
    destruct (lookup_lt_is_Some_2 color child) as [col Hcol]; [lia|]. rewrite Hcol. cbn [mbind option_bind].
    rewrite decide_False by (intros ->; by apply (Hall child)).
    exists (c :: S), (DS (<[size + c:=k - 1]> work) sp color). split_and!; [done| |].
    + split; simpl; try done.
      * split; simpl; try done.
        -- by rewrite insert_length.
        -- intros j x Hj. rewrite list_lookup_insert_ne; [by apply Hst|].
           pose proof (lookup_lt_Some _ _ _ Hj). simpl in *. lia.
        -- intros v x Hx Hx0. destruct (decide (v = c)) as [->|Hvc].
           ++ pose proof (Hdone c x Hx Hx0) as Hz. rewrite Hk in Hz. simplify_eq; lia.
           ++ rewrite list_lookup_insert_ne by lia. by eapply Hdone.
      * intros v Hvs. destruct (decide (v = c)) as [->|Hvc].
        -- exists (k - 1). rewrite list_lookup_insert by lia. split; [done|].
           destruct Hkb as [?|[? ?]]; [left; lia|right; split; [done|lia]].
        -- rewrite list_lookup_insert_ne by lia. by apply Hcnt.
    + pose proof (cnts_upd work sp color c k (k - 1) Hlw Hcs Hk). simpl. lia.
  - (* finish c *)
    rewrite upd_Some by lia. cbn [mbind option_bind].
    assert (k = 0) as -> by lia.
    exists S, (DS work (sp - 1) (<[c:=Z.of_nat ncol]> color)). split_and!; [done| |].
    + split; simpl; try done.
      * split; simpl; try done.
        -- by rewrite insert_length.
        -- lia.
        -- intros j x Hj. replace (sp - 1 - 1 - j) with (sp - 1 - (1 + j)) by lia. by apply (Hst (1 + j)).
        -- intros v Hvin. apply HreS. by right.
        -- intros v x Hx. destruct (decide (v = c)) as [->|Hvc].
           ++ rewrite list_lookup_insert in Hx by lia. simplify_eq. right; right. lia.
           ++ rewrite list_lookup_insert_ne in Hx by lia. by eapply Hv.
        -- intros v Hx. destruct (decide (v = c)) as [->|Hvc].
           ++ rewrite list_lookup_insert in Hx by lia. unfold visited in Hx. simplify_eq; lia.
           ++ rewrite list_lookup_insert_ne in Hx by lia. apply Hvis in Hx.
              apply elem_of_cons in Hx as [?|?]; done.
        -- intros v Hx. destruct (decide (v = c)) as [->|Hvc]; [done|].
           rewrite list_lookup_insert_ne in Hx by lia. by apply Hnc.
        -- intros v x Hx Hx0. destruct (decide (v = c)) as [->|Hvc]; [done|].
           rewrite list_lookup_insert_ne in Hx by lia. by eapply Hdone.
        -- intros v x Hx. destruct (decide (v = c)) as [->|Hvc].
           ++ rewrite list_lookup_insert by lia. rewrite Hc0. unfold unvisited. split; intros; simplify_eq; lia.
           ++ rewrite list_lookup_insert_ne by lia. by apply Hold.
        -- destruct (decide (i = c)) as [->|Hvc].
           ++ rewrite list_lookup_insert by lia. unfold unvisited. intros ?. simplify_eq; lia.
           ++ by rewrite list_lookup_insert_ne by lia.
      * lia.
      * intros ?. lia.
      * intros v. destruct (decide (v = c)) as [->|Hvc].
        -- rewrite list_lookup_insert by lia. unfold unvisited. intros ?. simplify_eq; lia.
        -- by rewrite list_lookup_insert_ne by lia.
    + unfold cnts. simpl. lia.
Qed.

(** Result of a search: exactly the vertices connected to the seed get the new
    colour. *)
Definition post (s : dfs_state) : Prop :=
  length (d_work s) = 2 * size ∧ length (d_color s) = size ∧ d_sp s = 0 ∧
  (∀ v x, d_color s !! v = Some x → x = unvisited ∨ (0 ≤ x ≤ Z.of_nat ncol)%Z) ∧
  (∀ v, d_color s !! v = Some (Z.of_nat ncol) ↔ rtc E0 i v) ∧
  (∀ v x, (0 ≤ x < Z.of_nat ncol)%Z → d_color s !! v = Some x ↔ color0 !! v = Some x) ∧
  (∀ v, v < size → ∃ k, d_work s !! (size + v) = Some k ∧ k ≤ length (row v)) ∧
  (∀ v x, d_color s !! v = Some x → (0 ≤ x)%Z → d_work s !! (size + v) = Some 0) ∧
  (∀ v k t u, d_work s !! (size + v) = Some k → k ≤ t → row v !! t = Some u →
      d_color s !! u ≠ Some unvisited).

Lemma phB_post s : phB [] s → post s.
Proof.
  intros [HC H0 Hle Htop Hall Hreach Hcnt].
  destruct HC as [Hlw Hlc Hsp Hst HreS Hv Hvis Hnc Hdone Hold Hseed].
  assert (Hcol : ∀ v x, d_color s !! v = Some x → (0 ≤ x ≤ Z.of_nat ncol)%Z).
  { intros v x Hx. destruct (Hv v x Hx) as [->|[->|?]]; [by apply Hall in Hx| |done].
    apply Hvis in Hx. by apply elem_of_nil in Hx. }
  split_and!; try done.
  - intros v x Hx. right. by eapply Hcol.
  - intros v. split; [apply Hnc|]. intros Hr. destruct (reach_uncoloured v Hr) as [Hvs Hv0].
    destruct (lookup_lt_is_Some_2 (d_color s) v) as [x Hx]; [lia|].
    pose proof (Hcol v x Hx). destruct (decide (x = Z.of_nat ncol)) as [->|Hne]; [done|].
    apply Hold in Hx; [|lia]. rewrite Hv0 in Hx. unfold unvisited in Hx. simplify_eq; lia.
  - intros v Hvs. destruct (lookup_lt_is_Some_2 (d_color s) v) as [x Hx]; [lia|].
    exists 0. split; [|lia]. eapply Hdone; [done|]. apply Hcol in Hx. lia.
Qed.

Lemma phA_post s : phA [] s → post s.
Proof.
  intros [HC Hle Hsh Hlast Hcnt Htail Hne' Hed].
  destruct HC as [Hlw Hlc Hsp Hst HreS Hv Hvis Hnc Hdone Hold Hseed].
  assert (Hcol : ∀ v x, d_color s !! v = Some x → x = unvisited ∨ (0 ≤ x ≤ Z.of_nat ncol)%Z).
  { intros v x Hx. destruct (Hv v x Hx) as [->|[->|?]]; [by left| |by right].
    apply Hvis in Hx. by apply elem_of_nil in Hx. }
  assert (Hed' : ∀ v k t u, d_work s !! (size + v) = Some k → k ≤ t → row v !! t = Some u →
      d_color s !! u ≠ Some unvisited).
  { intros v k t u H1 H2 H3. destruct (Hed v k t u H1 H2 H3) as [H|H]; [by apply elem_of_nil in H|done]. }
  assert (Hnew : ∀ v x, rtc E0 i v → d_color s !! v = Some x → (0 ≤ x)%Z → x = Z.of_nat ncol).
  { intros v x Hr Hx Hx0. destruct (Hcol v x Hx) as [->|Hb]; [done|].
    destruct (decide (x = Z.of_nat ncol)) as [|Hne]; [done|].
    apply Hold in Hx; [|lia]. destruct (reach_uncoloured v Hr) as [_ Hv0].
    rewrite Hv0 in Hx. unfold unvisited in Hx. simplify_eq; lia. }
  assert (Hfwd : ∀ v, rtc E0 i v → d_color s !! v = Some (Z.of_nat ncol)).
  { apply (rtc_ind_r (λ v, d_color s !! v = Some (Z.of_nat ncol)) i); [|intros u v Hiu Huv IH].
    - destruct (lookup_lt_is_Some_2 (d_color s) i) as [x Hx]; [lia|].
      destruct (Hcol i x Hx) as [->|Hb]; [done|].
      rewrite Hx. f_equal. eapply Hnew; [reflexivity|done|lia].
    - assert (Hr' : rtc E0 i v) by (eapply rtc_r; done).
      destruct (reach_uncoloured v Hr') as [Hvs _].
      destruct (lookup_lt_is_Some_2 (d_color s) v) as [x Hx]; [lia|].
      pose proof (Hdone u _ IH ltac:(lia)) as Hz.
      destruct Huv as [Huv Huv0]. unfold E in Huv. apply elem_of_list_lookup in Huv as [t Ht].
      pose proof (Hed' u 0 t v Hz ltac:(lia) Ht) as Hnu.
      destruct (Hcol v x Hx) as [->|Hb]; [done|].
      rewrite Hx. f_equal. eapply Hnew; [exact Hr'|done|lia]. }
  split_and!; try done. intros v. split; [apply Hnc|apply Hfwd].
Qed.

Lemma phA_step S s :
  phA S s → S ≠ [] →
  ∃ S' s', dfs_step size ia ja ncol s = Some s' ∧
    ((phA S' s' ∧ 2 * cnts s' + d_sp s' < 2 * cnts s + d_sp s) ∨ phB S' s').
Proof.
  intros HA Hne. destruct HA as [HC Hle Hsh Hlast Hcnt Htail Hne' Hed].
  destruct HC as [Hlw Hlc Hsp Hst HreS Hv Hvis Hnc Hdone Hold Hseed].
  destruct s as [work sp color]. simpl in *.
  destruct S as [|c S]; [done|]. simpl in Hsp.
  pose proof (Hst 0 c eq_refl) as Hc. rewrite Nat.sub_0_r in Hc.
  pose proof (HreS c ltac:(left)) as Hrc.
  destruct (reach_uncoloured c Hrc) as [Hcs Hc0].
  destruct (Hcnt c Hcs) as (k & Hk & Hkb).
  rewrite Hc. cbn [mbind option_bind]. rewrite Hk. cbn [mbind option_bind].
  case_decide as Hk0.
  - destruct (row_pos c Hcs) as (b & Hb & _ & Hbl & Hrow).
    rewrite Hb. cbn [mbind option_bind].
    replace (b + k - 1) with (b + (k - 1)) by lia. rewrite Hrow by lia.
    destruct (lookup_lt_is_Some_2 (row c) (k - 1)) as [child Hch]; [lia|]. rewrite Hch. cbn [mbind option_bind].
    rewrite (upd_Some work) by lia. cbn [mbind option_bind].
    assert (HE : E c child) by (by eapply elem_of_list_lookup_2).
    pose proof (Hrange _ _ HE) as Hchs.
    destruct (lookup_lt_is_Some_2 color child) as [col Hcol]; [lia|]. rewrite Hcol. cbn [mbind option_bind].
    assert (Hnd : NoDup (c :: S)).
    { destruct Hsh as [?|(c' & S' & [= -> ->] & _ & Hz)]; [done|]. rewrite Hk in Hz. simplify_eq; lia. }
    set (work1 := <[size + c:=k - 1]> work).
    assert (Hw1 : ∀ v, v ≠ c → work1 !! (size + v) = work !! (size + v)).
    { intros v Hvc. unfold work1. by rewrite list_lookup_insert_ne by lia. }
    assert (Hw1c : work1 !! (size + c) = Some (k - 1)).
    { unfold work1. rewrite list_lookup_insert by lia. done. }
    assert (Hw1s : ∀ j, j < size → work1 !! j = work !! j).
    { intros j Hj. unfold work1. by rewrite list_lookup_insert_ne by lia. }
    assert (Hlw1 : length work1 = 2 * size) by (unfold work1; by rewrite insert_length).
    assert (Hstk : ∀ j x, (c :: S) !! j = Some x → work1 !! (sp - 1 - j) = Some x).
    { intros j x Hj. rewrite Hw1s; [by apply Hst|]. pose proof (lookup_lt_Some _ _ _ Hj). simpl in *. lia. }
    assert (Hdone1 : ∀ v x, color !! v = Some x → (0 ≤ x)%Z → work1 !! (size + v) = Some 0).
    { intros v x Hx Hx0. destruct (decide (v = c)) as [->|Hvc].
      - pose proof (Hdone c x Hx Hx0) as Hz. rewrite Hk in Hz. simplify_eq; lia.
      - rewrite Hw1 by done. by eapply Hdone. }
    assert (Hcnt1 : ∀ v, v < size → ∃ k, work1 !! (size + v) = Some k ∧ k ≤ length (row v)).
    { intros v Hvs. destruct (decide (v = c)) as [->|Hvc].
      - exists (k - 1). split; [done|lia].
      - rewrite Hw1 by done. by apply Hcnt. }
    assert (Hcc : ∀ sp col, cnts (DS work1 sp col) + 1 = cnts (DS work sp col)).
    { intros sp' col'. pose proof (cnts_upd work sp' col' c k (k - 1) Hlw Hcs Hk) as Hx. fold work1 in Hx. lia. }
    case_decide as Hcu.
    + (* push child *)
      subst col.
      assert (Hcneg : ∀ x, color !! c = Some x → (x < 0)%Z).
      { intros x Hx. destruct (decide (0 ≤ x)%Z) as [Hx0|]; [|lia].
        pose proof (Hdone c x Hx Hx0) as Hz. rewrite Hk in Hz. simplify_eq; lia. }
      assert (Hchi : child ≠ i). { intros ->. done. }
      assert (HE0 : E0 c child).
      { split; [done|]. destruct (lookup_lt_is_Some_2 color0 child) as [x Hx]; [lia|].
        destruct (Hvals _ _ Hx) as [->|Hr]; [done|]. apply Hold in Hx; [|done].
        rewrite Hcol in Hx. unfold unvisited in Hx. simplify_eq; lia. }
      assert (Hchtail : child ∉ S). { intros Hin. apply Htail in Hin. unfold visited, unvisited in *. congruence. }
      rewrite upd_Some by lia. cbn [mbind option_bind].
      rewrite upd_Some by lia. cbn [mbind option_bind].
      assert (Hcom : common (child :: c :: S)
        (DS (<[sp:=child]> work1) (Datatypes.S sp) (<[c:=visited]> color)) ↔
        (∀ v x, <[c:=visited]> color !! v = Some x → (0 ≤ x)%Z → <[sp:=child]> work1 !! (size + v) = Some 0)).
      { split; [intros HCM; apply HCM|]. intros Hd. split; simpl.
        - by rewrite insert_length.
        - by rewrite insert_length.
        - lia.
        - intros [|j] x Hj; simpl in Hj.
          + simplify_eq. rewrite !Nat.sub_0_r. rewrite list_lookup_insert by lia. done.
          + pose proof (lookup_lt_Some _ _ _ Hj). simpl in *. rewrite list_lookup_insert_ne by lia.
            replace (sp - 0 - Datatypes.S j) with (sp - 1 - j) by lia. by apply Hstk.
        - intros v Hvin. apply elem_of_cons in Hvin as [->|Hvin]; [|by apply HreS].
          eapply rtc_r; done.
        - intros v x Hx. destruct (decide (v = c)) as [->|Hvc].
          + rewrite list_lookup_insert in Hx by lia. simplify_eq. by right; left.
          + rewrite list_lookup_insert_ne in Hx by lia. by eapply Hv.
        - intros v Hx. destruct (decide (v = c)) as [->|Hvc]; [by right; left|].
          rewrite list_lookup_insert_ne in Hx by lia. right. by apply Hvis.
        - intros v Hx. destruct (decide (v = c)) as [->|Hvc]; [done|].
          rewrite list_lookup_insert_ne in Hx by lia. by apply Hnc.
        - done.
        - intros v x Hx. destruct (decide (v = c)) as [->|Hvc].
          + rewrite list_lookup_insert by lia. rewrite Hc0. unfold unvisited, visited.
            split; intros; simplify_eq; lia.
          + rewrite list_lookup_insert_ne by lia. by apply Hold.
        - destruct (decide (i = c)) as [->|Hvc].
          + rewrite list_lookup_insert by lia. done.
          + by rewrite list_lookup_insert_ne by lia. }
      destruct (decide (sp < size)) as [Hlt|Hge].
      * (* room on the stack *)
        exists (child :: c :: S), (DS (<[sp:=child]> work1) (Datatypes.S sp) (<[c:=visited]> color)).
        split; [done|]. left.
        assert (Hw2 : ∀ v, <[sp:=child]> work1 !! (size + v) = work1 !! (size + v)).
        { intros v. by rewrite list_lookup_insert_ne by lia. }
        split; [|].
        2:{ assert (cnts (DS (<[sp:=child]> work1) (Datatypes.S sp) (<[c:=visited]> color)) + 1 = cnts (DS work sp color)).
            { unfold cnts. simpl. rewrite drop_insert_gt by lia. apply (Hcc sp color). }
            simpl. lia. }
        split; simpl.
        -- apply Hcom. intros v x Hx Hx0. rewrite Hw2. destruct (decide (v = c)) as [->|Hvc].
           ++ rewrite list_lookup_insert in Hx by lia. unfold visited in Hx. simplify_eq; lia.
           ++ rewrite list_lookup_insert_ne in Hx by lia. by eapply Hdone1.
        -- lia.
        -- destruct (decide (child = c)) as [->|Hcc'].
           ++ right. exists c, S. split_and!; [done|done|]. rewrite Hw2, Hw1c. f_equal.
              apply Hself in Hch. lia.
           ++ left. apply NoDup_cons. split; [|done]. apply not_elem_of_cons. done.
        -- intros _. specialize (Hlast ltac:(done)). simpl in Hlast |- *. by destruct S.
        -- intros v Hvs. rewrite Hw2. by apply Hcnt1.
        -- intros v Hvin. destruct (decide (v = c)) as [->|Hvc].
           ++ rewrite list_lookup_insert by lia. done.
           ++ rewrite list_lookup_insert_ne by lia. apply elem_of_cons in Hvin as [?|Hvin]; [done|].
              by apply Htail.
        -- intros v Hvin. apply elem_of_cons in Hvin as [->|Hvin]; [by apply elem_of_not_nil in HE|].
           by apply Hne'.
        -- intros v k' t u. rewrite Hw2. intros Hk' Ht Hu.
           destruct (decide (u = c)) as [->|Huc]; [left; right; left|].
           rewrite list_lookup_insert_ne by done.
           destruct (decide (v = c)) as [->|Hvc].
           ++ rewrite Hw1c in Hk'. simplify_eq. destruct (decide (t = k - 1)) as [->|Htk].
              ** assert (u = child) as -> by congruence. left. left.
              ** destruct (Hed c k t u Hk ltac:(lia) Hu) as [?|?]; [left; by right|by right].
           ++ rewrite Hw1 in Hk' by done.
              destruct (Hed v k' t u Hk' Ht Hu) as [?|?]; [left; by right|by right].
      * (* the stack is full: only a repeated push of the last vertex is possible *)
        assert (sp = size) as -> by lia.
        assert (Hall : ∀ v, v < size → v ∈ c :: S).
        { intros v Hvs. destruct (decide (v ∈ c :: S)) as [|Hn]; [done|]. exfalso.
          assert (Hsub : v :: c :: S ⊆+ seq 0 size).
          { apply NoDup_submseteq; [by apply NoDup_cons|]. intros x Hx. apply elem_of_seq.
            apply elem_of_cons in Hx as [->|Hx]; [lia|].
            destruct (reach_uncoloured x (HreS x Hx)). lia. }
          apply submseteq_length in Hsub. rewrite seq_length in Hsub. simpl in Hsub. lia. }
        assert (child = c) as ->.
        { specialize (Hall child Hchs). apply elem_of_cons in Hall as [?|?]; done. }
        assert (Hk1 : k - 1 = 0). { apply Hself in Hch. lia. }
        assert (Hi00 : i = 0).
        { destruct (decide (i = 0)) as [|Hin]; [done|]. exfalso.
          specialize (Hall 0 ltac:(lia)). apply HreS in Hall. apply reach_uncoloured in Hall as [_ H0].
          pose proof (Hbelow 0 _ ltac:(lia) H0). unfold unvisited in *. lia. }
        assert (Hcne : c ≠ 0) by lia.
        exists (c :: c :: S), (DS (<[size:=c]> work1) (Datatypes.S size) (<[c:=visited]> color)).
        split; [done|]. right.
        assert (Hw2 : ∀ v, v ≠ 0 → <[size:=c]> work1 !! (size + v) = work1 !! (size + v)).
        { intros v Hv0'. by rewrite list_lookup_insert_ne by lia. }
        assert (Hall2 : ∀ v, v < size → <[c:=visited]> color !! v = Some visited).
        { intros v Hvs. destruct (decide (v = c)) as [->|Hvc].
          - by rewrite list_lookup_insert by lia.
          - rewrite list_lookup_insert_ne by done. apply Htail.
            specialize (Hall v Hvs). apply elem_of_cons in Hall as [?|?]; done. }
        assert (Hlc' : length (<[c:=visited]> color) = size) by (by rewrite insert_length).
        split; simpl.
        -- apply Hcom. intros v x Hx Hx0. pose proof (lookup_lt_Some _ _ _ Hx) as Hvs.
           rewrite Hall2 in Hx by lia. unfold visited in Hx. simplify_eq; lia.
        -- done.
        -- lia.
        -- intros _. exists c, S. split; [done|]. rewrite Hw2 by done. rewrite Hw1c. by rewrite Hk1.
        -- intros v Hx. pose proof (lookup_lt_Some _ _ _ Hx) as Hvs.
           rewrite Hall2 in Hx by lia. done.
        -- intros v Hvs. apply HreS. by apply Hall.
        -- intros v Hvs. destruct (decide (v = 0)) as [->|Hv0'].
           ++ exists c. rewrite Nat.add_0_r. rewrite list_lookup_insert by lia. split; [done|]. right.
              split; [done|].
              assert (Hnz : size ≤ length ja).
              { apply nnz_ge_size. intros v Hvs'. destruct (decide (v = c)) as [->|Hvc'].
                - by apply elem_of_not_nil in HE.
                - apply Hne'. specialize (Hall v Hvs'). apply elem_of_cons in Hall as [?|?]; done. }
              lia.
           ++ rewrite Hw2 by done. destruct (Hcnt1 v Hvs) as (k' & ? & ?). exists k'. split; [done|by left].
    + (* child already seen *)
      exists (c :: S), (DS work1 sp color). split; [done|]. left. split; [|pose proof (Hcc sp color); simpl; lia].
      split; simpl; try done.
      * by left.
      * intros v k' t u Hk' Ht Hu. destruct (decide (v = c)) as [->|Hvc].
        -- rewrite Hw1c in Hk'. simplify_eq. destruct (decide (t = k - 1)) as [->|Htk].
           ++ assert (u = child) as -> by congruence. right. intros ?. simplify_eq.
           ++ by apply (Hed c k t u Hk ltac:(lia) Hu).
        -- rewrite Hw1 in Hk' by done. by apply (Hed v k' t u).
  - (* finish c *)
    rewrite upd_Some by lia. cbn [mbind option_bind].
    assert (k = 0) as -> by lia.
    exists S, (DS work (sp - 1) (<[c:=Z.of_nat ncol]> color)). split; [done|]. left.
    split; [|unfold cnts; simpl; lia].
    assert (Hnu : ∀ v, v ≠ c → <[c:=Z.of_nat ncol]> color !! v = color !! v).
    { intros v Hvc. by rewrite list_lookup_insert_ne by done. }
    assert (Hcu : <[c:=Z.of_nat ncol]> color !! c = Some (Z.of_nat ncol)).
    { by rewrite list_lookup_insert by lia. }
    split; simpl.
    + split; simpl; try done.
      * by rewrite insert_length.
      * lia.
      * intros j x Hj. replace (sp - 1 - 1 - j) with (sp - 1 - (1 + j)) by lia. by apply (Hst (1 + j)).
      * intros v Hvin. apply HreS. by right.
      * intros v x Hx. destruct (decide (v = c)) as [->|Hvc].
        -- rewrite Hcu in Hx. simplify_eq. right; right. lia.
        -- rewrite Hnu in Hx by done. by eapply Hv.
      * intros v Hx. destruct (decide (v = c)) as [->|Hvc].
        -- rewrite Hcu in Hx. unfold visited in Hx. simplify_eq; lia.
        -- rewrite Hnu in Hx by done. apply Hvis in Hx. apply elem_of_cons in Hx as [?|?]; done.
      * intros v Hx. destruct (decide (v = c)) as [->|Hvc]; [done|].
        rewrite Hnu in Hx by done. by apply Hnc.
      * intros v x Hx Hx0. destruct (decide (v = c)) as [->|Hvc]; [done|].
        rewrite Hnu in Hx by done. by eapply Hdone.
      * intros v x Hx. destruct (decide (v = c)) as [->|Hvc].
        -- rewrite Hcu, Hc0. unfold unvisited. split; intros; simplify_eq; lia.
        -- rewrite Hnu by done. by apply Hold.
      * destruct (decide (i = c)) as [->|Hvc].
        -- rewrite Hcu. unfold unvisited. intros ?. simplify_eq; lia.
        -- by rewrite Hnu by done.
    + lia.
    + left. destruct Hsh as [Hnd|(c' & S' & [= -> ->] & Hnd & _)]; [|done]. by apply NoDup_cons in Hnd as [_ ?].
    + intros HSne. specialize (Hlast ltac:(done)). simpl in Hlast. by destruct S.
    + done.
    + intros v Hvin. destruct (decide (v = c)) as [->|Hvc].
      * exfalso. destruct Hsh as [Hnd|(c' & S' & [= -> ->] & Hnd & _)]; apply NoDup_cons in Hnd as [Hnd _]; [|done].
        apply Hnd. destruct S; [done|]. by right.
      * rewrite Hnu by done. apply Htail. destruct S; [by apply elem_of_nil in Hvin|]. by right.
    + intros v Hvin. apply Hne'. destruct S; [by apply elem_of_nil in Hvin|]. by right.
    + intros v k' t u Hk' Ht Hu. destruct (decide (u = c)) as [->|Huc].
      * right. rewrite Hcu. unfold unvisited. intros ?. simplify_eq; lia.
      * rewrite Hnu by done. destruct (Hed v k' t u Hk' Ht Hu) as [Hin|?]; [|by right].
        apply elem_of_cons in Hin as [?|?]; [done|by left].
Qed.

Lemma phB_run S s :
  phB S s → ∃ n s', (∀ fuel, n ≤ fuel → dfs_while size ia ja fuel ncol s = Some s') ∧ post s'.
Proof.
  remember (cnts s + d_sp s) as m eqn:Hm. revert S s Hm.
  induction (lt_wf m) as [m _ IH]. intros S s -> HB.
  destruct (decide (S = [])) as [->|Hne].
  - exists 1, s. split; [|by apply phB_post].
    assert (d_sp s = 0) as Hz by (symmetry; apply (cm_sp _ _ (pb_cm _ _ HB))).
    intros [|fuel] Hf; [lia|]. simpl. by rewrite decide_True.
  - destruct (phB_step S s HB Hne) as (S' & s1 & Hs & HB' & Hlt).
    destruct (IH _ Hlt S' s1 eq_refl HB') as (n & s' & Hr & Hp).
    exists (Datatypes.S n), s'. split; [|done]. intros [|fuel] Hf; [lia|]. simpl.
    assert (d_sp s ≠ 0) as Hz.
    { rewrite <- (cm_sp _ _ (pb_cm _ _ HB)). by destruct S. }
    rewrite decide_False by done. rewrite Hs. cbn [mbind option_bind]. apply Hr. lia.
Qed.

Lemma phA_run S s :
  phA S s → ∃ n s', (∀ fuel, n ≤ fuel → dfs_while size ia ja fuel ncol s = Some s') ∧ post s'.
Proof.
  remember (2 * cnts s + d_sp s) as m eqn:Hm. revert S s Hm.
  induction (lt_wf m) as [m _ IH]. intros S s -> HA.
  destruct (decide (S = [])) as [->|Hne].
  - exists 1, s. split; [|by apply phA_post].
    assert (d_sp s = 0) as Hz by (symmetry; apply (cm_sp _ _ (pa_cm _ _ HA))).
    intros [|fuel] Hf; [lia|]. simpl. by rewrite decide_True.
  - destruct (phA_step S s HA Hne) as (S' & s1 & Hs & Hcase).
    assert (∃ n s', (∀ fuel, n ≤ fuel → dfs_while size ia ja fuel ncol s1 = Some s') ∧ post s')
      as (n & s' & Hr & Hp).
    { destruct Hcase as [[HA' Hlt]|HB]; [by eapply (IH _ Hlt)|by eapply phB_run]. }
    exists (Datatypes.S n), s'. split; [|done]. intros [|fuel] Hf; [lia|]. simpl.
    assert (d_sp s ≠ 0) as Hz.
    { rewrite <- (cm_sp _ _ (pa_cm _ _ HA)). by destruct S. }
    rewrite decide_False by done. rewrite Hs. cbn [mbind option_bind]. apply Hr. lia.
Qed.
End seed.

(** ** The loop over seeds *)
Record outer (fs : list nat) (i ncol : nat) (s : dfs_state) : Prop := {
  o_lw : length (d_work s) = 2 * size;
  o_lc : length (d_color s) = size;
  o_sp : d_sp s = 0;
  o_vals : ∀ v x, d_color s !! v = Some x → x = unvisited ∨ (0 ≤ x < Z.of_nat ncol)%Z;
  o_below : ∀ u x, u < i → d_color s !! u = Some x → (0 ≤ x)%Z;
  o_closed : ∀ u v x y, E u v → d_color s !! u = Some x → d_color s !! v = Some y →
      (0 ≤ x)%Z → (0 ≤ y)%Z;
  o_seeds : length fs = ncol;
  o_first : ∀ k f, fs !! k = Some f → f < i ∧ d_color s !! f = Some (Z.of_nat k) ∧
      ∀ u x, u < f → d_color s !! u = Some x → (0 ≤ x < Z.of_nat k)%Z;
  o_reach : ∀ v x, d_color s !! v = Some x → (0 ≤ x)%Z →
      (∃ f, fs !! Z.to_nat x = Some f ∧ rtc E f v) ∧
      ∀ j f, (Z.of_nat j < x)%Z → fs !! j = Some f → ¬ rtc E f v;
  o_cnt : ∀ v, v < size → ∃ k, d_work s !! (size + v) = Some k ∧ k ≤ length (row v);
  o_done : ∀ v x, d_color s !! v = Some x → (0 ≤ x)%Z → d_work s !! (size + v) = Some 0;
  o_edges : ∀ v k t u, d_work s !! (size + v) = Some k → k ≤ t → row v !! t = Some u →
      d_color s !! u ≠ Some unvisited;
}.

Lemma seed_start fs i ncol s :
  outer fs i ncol s → i < size → d_color s !! i = Some unvisited →
  phA i ncol (d_color s) [i] (DS (<[0:=i]> (d_work s)) 1 (<[i:=visited]> (d_color s))).
Proof.
  intros [Hlw Hlc Hsp Hv Hbl Hcl Hfs Hfi Hrch Hcnt Hdone Hed] His Hiu.
  assert (Hw : ∀ v, <[0:=i]> (d_work s) !! (size + v) = d_work s !! (size + v)).
  { intros v. by rewrite list_lookup_insert_ne by lia. }
  assert (Hc : ∀ v, v ≠ i → <[i:=visited]> (d_color s) !! v = d_color s !! v).
  { intros v Hvi. by rewrite list_lookup_insert_ne by done. }
  assert (Hci : <[i:=visited]> (d_color s) !! i = Some visited).
  { by rewrite list_lookup_insert by lia. }
  split; simpl.
  - split; simpl.
    + by rewrite insert_length.
    + by rewrite insert_length.
    + done.
    + intros [|j] x Hj; simplify_eq/=. by rewrite list_lookup_insert by lia.
    + intros v Hin. apply elem_of_list_singleton in Hin as ->. done.
    + intros v x Hx. destruct (decide (v = i)) as [->|Hvi].
      * rewrite Hci in Hx. simplify_eq. by right; left.
      * rewrite Hc in Hx by done. destruct (Hv v x Hx) as [?|?]; [by left|right; right; lia].
    + intros v Hx. destruct (decide (v = i)) as [->|Hvi]; [left|].
      rewrite Hc in Hx by done. destruct (Hv _ _ Hx) as [?|?]; [done|]. unfold visited in *. lia.
    + intros v Hx. destruct (decide (v = i)) as [->|Hvi]; [done|].
      rewrite Hc in Hx by done. destruct (Hv _ _ Hx) as [?|?]; unfold unvisited in *; lia.
    + intros v x Hx Hx0. rewrite Hw. destruct (decide (v = i)) as [->|Hvi].
      * rewrite Hci in Hx. unfold visited in *. simplify_eq; lia.
      * rewrite Hc in Hx by done. by eapply Hdone.
    + intros v x Hx. destruct (decide (v = i)) as [->|Hvi].
      * rewrite Hci, Hiu. unfold visited, unvisited. split; intros; simplify_eq; lia.
      * by rewrite Hc by done.
    + rewrite Hci. done.
  - lia.
  - left. apply NoDup_singleton.
  - done.
  - intros v Hvs. rewrite Hw. by apply Hcnt.
  - intros v Hin. by apply elem_of_nil in Hin.
  - intros v Hin. by apply elem_of_nil in Hin.
  - intros v k t u. rewrite Hw. intros Hk Ht Hu. destruct (decide (u = i)) as [->|Hui]; [left; left|].
    right. rewrite Hc by done. by eapply Hed.
Qed.

Lemma post_outer fs i ncol s s' :
  outer fs i ncol s → i < size → d_color s !! i = Some unvisited →
  post i ncol (d_color s) s' → outer (fs ++ [i]) (S i) (S ncol) s'.
Proof.
  intros [Hlw Hlc Hsp Hv Hbl Hcl Hfs Hfi Hrch Hcnt Hdone Hed] His Hiu
    (Hlw' & Hlc' & Hsp' & Hv' & Hnew & Hold & Hcnt' & Hdone' & Hed').
  assert (Hii : d_color s' !! i = Some (Z.of_nat ncol)) by (by apply Hnew).
  assert (Hkeep : ∀ u x, d_color s !! u = Some x → (0 ≤ x)%Z → d_color s' !! u = Some x).
  { intros u x Hx Hx0. apply Hold; [|done]. destruct (Hv u x Hx) as [->|?]; [done|lia]. }
  assert (Hcase : ∀ u x, d_color s' !! u = Some x → (0 ≤ x)%Z →
      (x = Z.of_nat ncol ∧ rtc (E0 (d_color s)) i u) ∨ ((x < Z.of_nat ncol)%Z ∧ d_color s !! u = Some x)).
  { intros u x Hx Hx0. destruct (decide (x = Z.of_nat ncol)) as [->|Hne].
    - left. split; [done|]. by apply Hnew.
    - right. destruct (Hv' u x Hx) as [->|?]; [done|]. split; [lia|]. apply Hold; [lia|done]. }
  split; try done.
  - intros v x Hx. destruct (Hv' v x Hx) as [?|?]; [by left|right; lia].
  - intros u x Hu Hx. destruct (decide (u = i)) as [->|Hui].
    + rewrite Hii in Hx. simplify_eq; lia.
    + destruct (lookup_lt_is_Some_2 (d_color s) u) as [y Hy]; [lia|].
      pose proof (Hbl u y ltac:(lia) Hy) as Hy0. pose proof (Hkeep u y Hy Hy0). simplify_eq; lia.
  - intros u v x y HE Hu Hw Hx0. pose proof (Hrange _ _ HE).
    destruct (lookup_lt_is_Some_2 (d_color s) v) as [y' Hy']; [lia|].
    destruct (decide (y' = unvisited)) as [->|Hyn].
    + destruct (Hcase u x Hu Hx0) as [[-> Hru]|[Hlx Hou]].
      * assert (rtc (E0 (d_color s)) i v) as Hiv by (eapply rtc_r; [done|by split]).
        apply Hnew in Hiv. simplify_eq; lia.
      * pose proof (Hcl u v x unvisited HE Hou Hy' Hx0). unfold unvisited in *. lia.
    + destruct (Hv v y' Hy') as [?|?]; [done|]. pose proof (Hkeep v y' Hy' ltac:(lia)). simplify_eq; lia.
  - rewrite app_length. simpl. lia.
  - intros k f Hk. destruct (decide (k < ncol)) as [Hlt|Hge].
    + rewrite lookup_app_l in Hk by lia. destruct (Hfi k f Hk) as (Hf & Hfc & Hfu).
      split_and!; [lia|apply Hkeep; [done|lia]|].
      intros u x Hu Hx. destruct (lookup_lt_is_Some_2 (d_color s) u) as [y Hy]; [lia|].
      pose proof (Hfu u y Hu Hy). pose proof (Hkeep u y Hy ltac:(lia)). simplify_eq; lia.
    + rewrite lookup_app_r in Hk by lia. apply list_lookup_singleton_Some in Hk as [Hk <-].
      assert (k = ncol) as -> by lia. split_and!; [lia|done|]. intros u x Hu Hx.
      destruct (lookup_lt_is_Some_2 (d_color s) u) as [y Hy]; [lia|].
      pose proof (Hbl u y ltac:(lia) Hy) as Hy0. pose proof (Hkeep u y Hy Hy0).
      destruct (Hv u y Hy) as [->|?]; [unfold unvisited in *; lia|]. simplify_eq; lia.
  - intros v x Hx Hx0. destruct (Hcase v x Hx Hx0) as [[-> Hrv]|[Hlx Hov]].
    + split.
      * exists i. split.
        -- rewrite lookup_app_r by lia. by replace (Z.to_nat (Z.of_nat ncol) - length fs) with 0 by lia.
        -- clear -Hrv. induction Hrv as [|a b c [Hab _] H IH]; [done|]. by eapply rtc_l.
      * intros j f Hj Hf Hr. rewrite lookup_app_l in Hf by lia. destruct (Hfi j f Hf) as (_ & Hfc & _).
        (* coloured vertices are closed under edges *)
        assert (G : ∀ w, rtc E f w → ∃ z, d_color s !! w = Some z ∧ (0 ≤ z)%Z).
        { apply (rtc_ind_r (λ w, ∃ z, d_color s !! w = Some z ∧ (0 ≤ z)%Z) f).
          - exists (Z.of_nat j). split; [done|lia].
          - intros a b _ Hab (z & Hz & Hz0). pose proof (Hrange _ _ Hab).
            destruct (lookup_lt_is_Some_2 (d_color s) b) as [z' Hz']; [lia|].
            exists z'. split; [done|]. by eapply (Hcl a b z z'). }
        destruct (G v Hr) as (z & Hz & Hz0).
        assert (Hvu : d_color s !! v = Some unvisited).
        { apply rtc_inv_r in Hrv as [<-|(y & _ & _ & Hy)]; done. }
        rewrite Hvu in Hz. unfold unvisited in Hz. simplify_eq; lia.
    + destruct (Hrch v x Hov Hx0) as [(f & Hf & Hr) Hmin]. split.
      * exists f. split; [|done]. rewrite lookup_app_l; [done|]. by eapply lookup_lt_Some.
      * intros j g Hj Hg. rewrite lookup_app_l in Hg by lia. by eapply Hmin.
Qed.

Lemma seeds_run n fs i ncol s :
  outer fs i ncol s → i + n = size →
  ∃ m fs' ncol' s', (∀ fuel, m ≤ fuel → dfs_seeds size ia ja fuel n i ncol s = Some (ncol', s')) ∧
    outer fs' size ncol' s'.
Proof.
  revert fs i ncol s. induction n as [|n IH]; intros fs i ncol s HO Hin.
  - exists 0, fs, ncol, s. split; [done|]. by replace size with i by lia.
  - destruct (lookup_lt_is_Some_2 (d_color s) i) as [x Hx]; [rewrite (o_lc _ _ _ _ HO); lia|].
    destruct (decide (0 ≤ x)%Z) as [Hx0|Hx0].
    + destruct (IH fs (S i) ncol s) as (m & fs' & ncol' & s' & Hr & HO').
      { destruct HO as [H1 H2 H3 H4 H5 H6 H7 H8 H9 H10 H11 H12]. split; try done.
        - intros u y Hu Hy. destruct (decide (u = i)) as [->|Hui]; [congruence|]. eapply (H5 u); [lia|done].
        - intros k f Hk. destruct (H8 k f Hk) as (? & ? & ?). split_and!; [lia|done|done]. }
      { lia. }
      exists m, fs', ncol', s'. split; [|done]. intros fuel Hf. simpl. rewrite Hx. cbn [mbind option_bind].
      rewrite decide_True by done. by apply Hr.
    + assert (x = unvisited) as ->.
      { destruct (o_vals _ _ _ _ HO i x Hx) as [?|?]; [done|lia]. }
      destruct (phA_run i ncol (d_color s)) with (S := [i])
        (s := DS (<[0:=i]> (d_work s)) 1 (<[i:=visited]> (d_color s))) as (m1 & s1 & Hr1 & Hp1).
      { lia. }
      { done. }
      { apply HO. }
      { apply HO. }
      { apply HO. }
      { by apply (seed_start fs); [|lia|]. }
      destruct (IH (fs ++ [i]) (S i) (S ncol) s1) as (m & fs' & ncol' & s' & Hr & HO').
      { eapply post_outer; try done. lia. }
      { lia. }
      exists (Nat.max m m1), fs', ncol', s'. split; [|done]. intros fuel Hf. simpl. rewrite Hx. cbn [mbind option_bind].
      rewrite decide_False by done. rewrite (o_sp _ _ _ _ HO).
      rewrite (upd_Some (d_work s)) by (rewrite (o_lw _ _ _ _ HO); lia). cbn [mbind option_bind].
      rewrite upd_Some by (rewrite (o_lc _ _ _ _ HO); lia). cbn [mbind option_bind].
      rewrite Hr1 by lia. cbn [mbind option_bind]. apply Hr. lia.
Qed.

Lemma dfs_init_Some n i work color :
  length work = 2 * size → length color = size → i + n = size →
  (∀ v, v < i → color !! v = Some unvisited ∧ work !! (size + v) = Some (length (row v))) →
  ∃ work' color', dfs_init size ia n i work color = Some (work', color') ∧
    length work' = 2 * size ∧ length color' = size ∧
    ∀ v, v < size → color' !! v = Some unvisited ∧ work' !! (size + v) = Some (length (row v)).
Proof.
  revert i work color. induction n as [|n IH]; intros i work color Hw Hc Hin H.
  - exists work, color. split_and!; try done. intros v Hv. apply H. lia.
  - simpl. rewrite (upd_Some color) by lia. cbn [mbind option_bind].
    destruct (row_pos i ltac:(lia)) as (b & Hb & He & _ & _). rewrite He, Hb. cbn [mbind option_bind].
    rewrite upd_Some by lia. cbn [mbind option_bind].
    apply IH; [by rewrite insert_length|by rewrite insert_length|lia|].
    intros v Hv. destruct (decide (v = i)) as [->|Hvi].
    + rewrite !list_lookup_insert by lia. split; [done|]. f_equal. lia.
    + rewrite !list_lookup_insert_ne by lia. apply H. lia.
Qed.

(** For any directed graph: the colour of a vertex is the number of the first
    seed it can be reached from, and the seeds are chosen in increasing order. *)
Lemma dfs_run_correct color0 work0 :
  length color0 = size → length work0 = 2 * size →
  ∃ m fs ncol color, (∀ fuel, m ≤ fuel → dfs_run fuel size ia ja color0 work0 = Some (ncol, color)) ∧
    length color = size ∧ length fs = ncol ∧
    (∀ v x, color !! v = Some x → (0 ≤ x < Z.of_nat ncol)%Z) ∧
    (∀ v x, color !! v = Some x →
      (∃ f, fs !! Z.to_nat x = Some f ∧ rtc E f v) ∧
      ∀ j f, (Z.of_nat j < x)%Z → fs !! j = Some f → ¬ rtc E f v) ∧
    (∀ k f, fs !! k = Some f → color !! f = Some (Z.of_nat k) ∧
        ∀ u x, u < f → color !! u = Some x → (x < Z.of_nat k)%Z).
Proof.
  intros Hc Hw.
  destruct (dfs_init_Some size 0 work0 color0 Hw Hc ltac:(lia) ltac:(intros; lia))
    as (work & color & Hinit & Hlw & Hlc & H).
  destruct (seeds_run size [] 0 0 (DS work 0 color)) as (m & fs & ncol & s' & Hr & HO).
  { split; simpl; try done.
    - intros v x Hx. pose proof (lookup_lt_Some _ _ _ Hx) as Hv. destruct (H v ltac:(lia)) as [E1 _].
      left. congruence.
    - intros; lia.
    - intros u v x y _ Hu _ Hx0. pose proof (lookup_lt_Some _ _ _ Hu) as Hv. destruct (H u ltac:(lia)) as [E1 _].
      rewrite E1 in Hu. unfold unvisited in Hu. simplify_eq; lia.
    - intros u x Hu Hx0. pose proof (lookup_lt_Some _ _ _ Hu) as Hv. destruct (H u ltac:(lia)) as [E1 _].
      rewrite E1 in Hu. unfold unvisited in Hu. simplify_eq; lia.
    - intros v Hv. destruct (H v Hv) as [_ ->]. by eexists.
    - intros u x Hu Hx0. pose proof (lookup_lt_Some _ _ _ Hu) as Hv. destruct (H u ltac:(lia)) as [E1 _].
      rewrite E1 in Hu. unfold unvisited in Hu. simplify_eq; lia.
    - intros v k t u Hk Ht Hu. pose proof (lookup_lt_Some _ _ _ Hu) as Htl.
      assert (v < size) as Hv. { eapply E_dom. by eapply elem_of_list_lookup_2. }
      destruct (H v Hv) as [_ E2]. rewrite E2 in Hk. simplify_eq; lia. }
  { lia. }
  assert (Hpos : ∀ v x, d_color s' !! v = Some x → (0 ≤ x)%Z).
  { intros v x Hx. eapply (o_below _ _ _ _ HO v); [|done]. rewrite <- (o_lc _ _ _ _ HO). by eapply lookup_lt_Some. }
  exists m, fs, ncol, (d_color s'). split_and!.
  - intros fuel Hf. unfold dfs_run, dfs_call. rewrite Hinit. cbn [mbind option_bind]. rewrite Hr by lia. done.
  - apply HO.
  - apply HO.
  - intros v x Hx. pose proof (Hpos v x Hx). destruct (o_vals _ _ _ _ HO v x Hx) as [->|?]; [unfold unvisited in *; lia|done].
  - intros v x Hx. apply (o_reach _ _ _ _ HO v x Hx). by eapply Hpos.
  - intros k f Hk. destruct (o_first _ _ _ _ HO k f Hk) as (_ & Hf & Hfu). split; [done|].
    intros u x Hu Hx. apply (Hfu u x Hu Hx).
Qed.
End dfs.

(** * Longer arrays: what lies beyond the part in use is neither read nor changed *)
Lemma lookup_app_Some {A} (l k : list A) i x : l !! i = Some x → (l ++ k) !! i = Some x.
Proof. intros H. rewrite lookup_app_l; [done|]. by eapply lookup_lt_Some. Qed.
Lemma upd_app {A} (l k : list A) i x l' : upd l i x = Some l' → upd (l ++ k) i x = Some (l' ++ k).
Proof.
  intros H. destruct (decide (i < length l)) as [Hl|Hl].
  - rewrite upd_Some in H by done. simplify_eq. rewrite upd_Some by (rewrite app_length; lia).
    by rewrite insert_app_l.
  - unfold upd in H. rewrite decide_False in H by done. done.
Qed.

Section frame.
Variables (size : nat) (ia ja xi xj xw : list nat) (xc : list Z).

Lemma dfs_init_frame n i work color work' color' :
  dfs_init size ia n i work color = Some (work', color') →
  dfs_init size (ia ++ xi) n i (work ++ xw) (color ++ xc) = Some (work' ++ xw, color' ++ xc).
Proof.
  revert i work color. induction n as [|n IH]; intros i work color H; simpl in *; [by simplify_eq|].
  destruct (upd color i unvisited) as [c1|] eqn:E1; [|done]. cbn [mbind option_bind] in H.
  rewrite (upd_app _ _ _ _ _ E1). cbn [mbind option_bind].
  destruct (ia !! S i) as [e|] eqn:E2; [|done]. cbn [mbind option_bind] in H.
  rewrite (lookup_app_Some _ _ _ _ E2). cbn [mbind option_bind].
  destruct (ia !! i) as [b|] eqn:E3; [|done]. cbn [mbind option_bind] in H.
  rewrite (lookup_app_Some _ _ _ _ E3). cbn [mbind option_bind].
  destruct (upd work (size + i) (e - b)) as [w1|] eqn:E4; [|done]. cbn [mbind option_bind] in H.
  rewrite (upd_app _ _ _ _ _ E4). cbn [mbind option_bind]. by apply IH.
Qed.

Definition grow (s : dfs_state) : dfs_state := DS (d_work s ++ xw) (d_sp s) (d_color s ++ xc).

Lemma dfs_step_frame ncol s s' :
  dfs_step size ia ja ncol s = Some s' →
  dfs_step size (ia ++ xi) (ja ++ xj) ncol (grow s) = Some (grow s').
Proof.
  destruct s as [work sp color]. unfold grow. simpl. intros H.
  destruct (work !! (sp - 1)) as [c|] eqn:E1; [|done]. cbn [mbind option_bind] in H.
  rewrite (lookup_app_Some _ _ _ _ E1). cbn [mbind option_bind].
  destruct (work !! (size + c)) as [k|] eqn:E2; [|done]. cbn [mbind option_bind] in H.
  rewrite (lookup_app_Some _ _ _ _ E2). cbn [mbind option_bind].
  case_decide.
  - destruct (ia !! c) as [b|] eqn:E3; [|done]. cbn [mbind option_bind] in H.
    rewrite (lookup_app_Some _ _ _ _ E3). cbn [mbind option_bind].
    destruct (ja !! (b + k - 1)) as [ch|] eqn:E4; [|done]. cbn [mbind option_bind] in H.
    rewrite (lookup_app_Some _ _ _ _ E4). cbn [mbind option_bind].
    destruct (upd work (size + c) (k - 1)) as [w1|] eqn:E5; [|done]. cbn [mbind option_bind] in H.
    rewrite (upd_app _ _ _ _ _ E5). cbn [mbind option_bind].
    destruct (color !! ch) as [x|] eqn:E6; [|done]. cbn [mbind option_bind] in H.
    rewrite (lookup_app_Some _ _ _ _ E6). cbn [mbind option_bind].
    case_decide.
    + destruct (upd w1 sp ch) as [w2|] eqn:E7; [|done]. cbn [mbind option_bind] in H.
      rewrite (upd_app _ _ _ _ _ E7). cbn [mbind option_bind].
      destruct (upd color c visited) as [c2|] eqn:E8; [|done]. cbn [mbind option_bind] in H.
      rewrite (upd_app _ _ _ _ _ E8). cbn [mbind option_bind]. by simplify_eq.
    + by simplify_eq.
  - destruct (upd color c (Z.of_nat ncol)) as [c2|] eqn:E8; [|done]. cbn [mbind option_bind] in H.
    rewrite (upd_app _ _ _ _ _ E8). cbn [mbind option_bind]. by simplify_eq.
Qed.

Lemma dfs_while_frame fuel ncol s s' :
  dfs_while size ia ja fuel ncol s = Some s' →
  dfs_while size (ia ++ xi) (ja ++ xj) fuel ncol (grow s) = Some (grow s').
Proof.
  revert s. induction fuel as [|fuel IH]; intros s H; [done|].
  cbn [dfs_while] in *. change (d_sp (grow s)) with (d_sp s).
  case_decide; [by simplify_eq|].
  destruct (dfs_step size ia ja ncol s) as [s1|] eqn:E1; [|done]. cbn [mbind option_bind] in H.
  rewrite (dfs_step_frame _ _ _ E1). cbn [mbind option_bind]. by apply IH.
Qed.

Lemma dfs_seeds_frame fuel n i ncol s ncol' s' :
  dfs_seeds size ia ja fuel n i ncol s = Some (ncol', s') →
  dfs_seeds size (ia ++ xi) (ja ++ xj) fuel n i ncol (grow s) = Some (ncol', grow s').
Proof.
  revert i ncol s. induction n as [|n IH]; intros i ncol s H; simpl in *; [by simplify_eq|].
  destruct (d_color s !! i) as [x|] eqn:E1; [|done]. cbn [mbind option_bind] in H.
  rewrite (lookup_app_Some _ _ _ _ E1). cbn [mbind option_bind].
  case_decide; [by apply IH|].
  destruct (upd (d_work s) (d_sp s) i) as [w1|] eqn:E2; [|done]. cbn [mbind option_bind] in H.
  rewrite (upd_app _ _ _ _ _ E2). cbn [mbind option_bind].
  destruct (upd (d_color s) i visited) as [c1|] eqn:E3; [|done]. cbn [mbind option_bind] in H.
  rewrite (upd_app _ _ _ _ _ E3). cbn [mbind option_bind].
  destruct (dfs_while size ia ja fuel ncol (DS w1 (S (d_sp s)) c1)) as [s1|] eqn:E4; [|done].
  cbn [mbind option_bind] in H.
  pose proof (dfs_while_frame _ _ _ _ E4) as E5. unfold grow at 1 in E5. simpl in E5.
  rewrite E5. cbn [mbind option_bind]. by apply IH.
Qed.

Lemma dfs_run_frame fuel color work ncol color' :
  dfs_run fuel size ia ja color work = Some (ncol, color') →
  dfs_run fuel size (ia ++ xi) (ja ++ xj) (color ++ xc) (work ++ xw) = Some (ncol, color' ++ xc).
Proof.
  unfold dfs_run, dfs_call. intros H.
  destruct (dfs_init size ia size 0 work color) as [[w1 c1]|] eqn:E1; [|done]. cbn [mbind option_bind] in H.
  rewrite (dfs_init_frame _ _ _ _ _ _ E1). cbn [mbind option_bind].
  destruct (dfs_seeds size ia ja fuel size 0 0 (DS w1 0 c1)) as [[n1 s1]|] eqn:E2; [|done].
  cbn [mbind option_bind] in H. simplify_eq/=.
  pose proof (dfs_seeds_frame _ _ _ _ _ _ _ E2) as E3. unfold grow at 1 in E3. simpl in E3.
  by rewrite E3.
Qed.
End frame.

(** The work array keeps its length. *)
Lemma dfs_init_length size ia n i work color work' color' :
  dfs_init size ia n i work color = Some (work', color') → length work' = length work.
Proof.
  revert i work color. induction n as [|n IH]; intros i work color H; simpl in *; [by simplify_eq|].
  destruct (upd color i unvisited); [|done]. cbn [mbind option_bind] in H.
  destruct (ia !! S i) as [e|]; [|done]. destruct (ia !! i) as [b|]; [|done]. cbn [mbind option_bind] in H.
  destruct (upd work (size + i) (e - b)) as [w1|] eqn:E4; [|done]. cbn [mbind option_bind] in H.
  apply upd_inv in E4 as [_ ->]. apply IH in H. by rewrite insert_length in H.
Qed.
Lemma dfs_step_length size ia ja ncol s s' :
  dfs_step size ia ja ncol s = Some s' → length (d_work s') = length (d_work s).
Proof.
  destruct s as [work sp color]. simpl. intros H.
  destruct (work !! (sp - 1)) as [c|]; [|done]. cbn [mbind option_bind] in H.
  destruct (work !! (size + c)) as [k|]; [|done]. cbn [mbind option_bind] in H. case_decide.
  - destruct (ia !! c) as [b|]; [|done]. cbn [mbind option_bind] in H.
    destruct (ja !! (b + k - 1)) as [ch|]; [|done]. cbn [mbind option_bind] in H.
    destruct (upd work (size + c) (k - 1)) as [w1|] eqn:E5; [|done]. cbn [mbind option_bind] in H.
    apply upd_inv in E5 as [_ ->].
    destruct (color !! ch) as [x|]; [|done]. cbn [mbind option_bind] in H. case_decide.
    + destruct (upd _ sp ch) as [w2|] eqn:E7; [|done]. cbn [mbind option_bind] in H.
      apply upd_inv in E7 as [_ ->].
      destruct (upd color c visited); [|done]. cbn [mbind option_bind] in H. simplify_eq/=.
      by rewrite !insert_length.
    + simplify_eq/=. by rewrite insert_length.
  - destruct (upd color c (Z.of_nat ncol)); [|done]. cbn [mbind option_bind] in H. by simplify_eq/=.
Qed.
Lemma dfs_while_length size ia ja fuel ncol s s' :
  dfs_while size ia ja fuel ncol s = Some s' → length (d_work s') = length (d_work s).
Proof.
  revert s. induction fuel as [|fuel IH]; intros s H; [done|]. cbn [dfs_while] in H.
  case_decide; [by simplify_eq|]. destruct (dfs_step size ia ja ncol s) as [s1|] eqn:E1; [|done].
  cbn [mbind option_bind] in H. rewrite (IH _ H). by eapply dfs_step_length.
Qed.
Lemma dfs_seeds_length size ia ja fuel n i ncol s ncol' s' :
  dfs_seeds size ia ja fuel n i ncol s = Some (ncol', s') → length (d_work s') = length (d_work s).
Proof.
  revert i ncol s. induction n as [|n IH]; intros i ncol s H; cbn [dfs_seeds] in H; [by simplify_eq|].
  destruct (d_color s !! i) as [x|]; [|done]. cbn [mbind option_bind] in H.
  case_decide; [by eapply IH|].
  destruct (upd (d_work s) (d_sp s) i) as [w1|] eqn:E2; [|done]. cbn [mbind option_bind] in H.
  apply upd_inv in E2 as [_ ->].
  destruct (upd (d_color s) i visited) as [c1|]; [|done]. cbn [mbind option_bind] in H.
  destruct (dfs_while _ _ _ _ _ _) as [s1|] eqn:E4; [|done]. cbn [mbind option_bind] in H.
  rewrite (IH _ _ _ H), (dfs_while_length _ _ _ _ _ _ _ E4). simpl. by rewrite insert_length.
Qed.
Lemma dfs_call_run fuel size ia ja color work ncol color' :
  dfs_run fuel size ia ja color work = Some (ncol, color') →
  ∃ work', dfs_call fuel size ia ja color work = Some (ncol, color', work') ∧ length work' = length work.
Proof.
  unfold dfs_run. destruct (dfs_call fuel size ia ja color work) as [[[n c] w]|] eqn:E; [|done].
  simpl. intros [= -> ->]. exists w. split; [done|]. unfold dfs_call in E.
  destruct (dfs_init size ia size 0 work color) as [[w1 c1]|] eqn:E1; [|done]. cbn [mbind option_bind] in E.
  destruct (dfs_seeds size ia ja fuel size 0 0 (DS w1 0 c1)) as [[n1 s1]|] eqn:E2; [|done].
  cbn [mbind option_bind] in E. simplify_eq. rewrite (dfs_seeds_length _ _ _ _ _ _ _ _ _ _ E2). simpl.
  by eapply dfs_init_length.
Qed.

(** More fuel does not change the outcome. *)
Lemma dfs_while_mono size ia ja fuel fuel' ncol s s' :
  fuel ≤ fuel' → dfs_while size ia ja fuel ncol s = Some s' → dfs_while size ia ja fuel' ncol s = Some s'.
Proof.
  revert fuel' s. induction fuel as [|fuel IH]; intros fuel' s Hf H; [done|].
  destruct fuel' as [|fuel']; [lia|]. cbn [dfs_while] in *. case_decide; [done|].
  destruct (dfs_step size ia ja ncol s) as [s1|]; [|done]. cbn [mbind option_bind] in *. apply IH; [lia|done].
Qed.
Lemma dfs_seeds_mono size ia ja fuel fuel' n i ncol s r :
  fuel ≤ fuel' → dfs_seeds size ia ja fuel n i ncol s = Some r → dfs_seeds size ia ja fuel' n i ncol s = Some r.
Proof.
  intros Hf. revert i ncol s. induction n as [|n IH]; intros i ncol s H; cbn [dfs_seeds] in *; [done|].
  destruct (d_color s !! i) as [x|]; [|done]. cbn [mbind option_bind] in *.
  case_decide; [by apply IH|].
  destruct (upd (d_work s) (d_sp s) i) as [w1|]; [|done]. cbn [mbind option_bind] in *.
  destruct (upd (d_color s) i visited) as [c1|]; [|done]. cbn [mbind option_bind] in *.
  destruct (dfs_while size ia ja fuel ncol _) as [s1|] eqn:E4; [|done]. cbn [mbind option_bind] in *.
  rewrite (dfs_while_mono _ _ _ _ _ _ _ _ Hf E4). cbn [mbind option_bind]. by apply IH.
Qed.
Lemma dfs_call_mono fuel fuel' size ia ja color work r :
  fuel ≤ fuel' → dfs_call fuel size ia ja color work = Some r → dfs_call fuel' size ia ja color work = Some r.
Proof.
  intros Hf H. unfold dfs_call in *.
  destruct (dfs_init size ia size 0 work color) as [[w1 c1]|]; [|done]. cbn [mbind option_bind] in *.
  destruct (dfs_seeds size ia ja fuel size 0 0 (DS w1 0 c1)) as [[n1 s1]|] eqn:E2; [|done].
  by rewrite (dfs_seeds_mono _ _ _ _ _ _ _ _ _ _ Hf E2).
Qed.
