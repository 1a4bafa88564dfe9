(** Column extraction: lemmas. *)
From Verif Require Import Base GridModel GridSpec CsrSpec LoopModel LoopProof ColumnModel.

(** Two cells share a face. *)
Definition adjacent (g : ugrid) (x y : nat) : Prop :=
  ∃ f a b, face_between g f a b ∧
    ((a = Z.of_nat x ∧ b = Z.of_nat y) ∨ (a = Z.of_nat y ∧ b = Z.of_nat x)).

(** ** The neighbourhood query *)
Lemma neighbours_from_spec g c1 row hf n :
  slice (u_cellfaces g) hf n = Some row →
  (∀ f, f ∈ row → ∃ a b, face_between g f a b) →
  ∃ r, neighbours_from g c1 hf n = Some r ∧
    (r = true ↔ ∃ f a b, f ∈ row ∧ face_between g f a b ∧ (a = Z.of_nat c1 ∨ b = Z.of_nat c1)).
Proof.
  revert hf row. induction n as [|n IH]; intros hf row Hs Hf; cbn [neighbours_from slice] in *.
  - simplify_eq. exists false. split; [done|]. split; [done|]. intros (f & a & b & H & _). by apply elem_of_nil in H.
  - destruct (u_cellfaces g !! hf) as [f|] eqn:Ef; [|done]. cbn [mbind option_bind] in *.
    destruct (slice (u_cellfaces g) (S hf) n) as [row'|] eqn:Er; [|done]. cbn [mbind option_bind] in Hs.
    simplify_eq. destruct (Hf f ltac:(left)) as (a & b & Hab). pose proof Hab as [Ha Hb].
    rewrite Ha. cbn [mbind option_bind].
    destruct (decide (a = Z.of_nat c1)) as [Eq|Ne].
    { exists true. split; [done|]. split; [|done]. intros _. exists f, a, b. split_and!; [left|done|by left]. }
    rewrite Hb. cbn [mbind option_bind].
    destruct (decide (b = Z.of_nat c1)) as [Eq|Ne'].
    { exists true. split; [done|]. split; [|done]. intros _. exists f, a, b. split_and!; [left|done|by right]. }
    destruct (IH _ _ Er) as (r & E & Hr); [intros f' Hf'; apply Hf; by right|].
    exists r. split; [done|]. rewrite Hr. split.
    + intros (f' & a' & b' & ? & ?). exists f', a', b'. split; [by right|done].
    + intros (f' & a' & b' & Hin & Hb' & Hc). apply elem_of_cons in Hin as [->|Hin].
      * destruct Hb' as [? ?]. destruct Hab. simplify_eq. destruct Hc; done.
      * by exists f', a', b'.
Qed.

Lemma neighbours_spec g cf c0 c1 : grid_ok g cf → c0 < u_nc g → c0 ≠ c1 →
  ∃ r, neighbours g c0 c1 = Some r ∧ (r = true ↔ adjacent g c0 c1).
Proof.
  intros G Hc Hne. assert (is_Some (cf !! c0)) as [row Hrow].
  { apply lookup_lt_is_Some. by rewrite (ok_cells _ _ G). }
  destruct (ok_rows _ _ G) as (_ & _ & _ & HR). destruct (HR _ _ Hrow) as (b & e & Hb & He & Hle & Hsl).
  unfold neighbours. rewrite Hb. cbn [mbind option_bind]. replace (c0 + 1) with (S c0) by lia. rewrite He.
  cbn [mbind option_bind].
  destruct (neighbours_from_spec g c1 row b (e - b) Hsl) as (r & E & Hr).
  { intros f Hf. apply (ok_inc _ _ G _ _ _ Hrow) in Hf as (x & y & H & _). by exists x, y. }
  exists r. split; [done|]. rewrite Hr. split.
  - intros (f & x & y & Hf & Hxy & Hc1). apply (ok_inc _ _ G _ _ _ Hrow) in Hf as (x' & y' & H & Hc0).
    destruct H, Hxy. simplify_eq. exists f, x', y'. split; [done|].
    destruct Hc0 as [->| ->], Hc1 as [?|?]; subst; try lia; auto.
  - intros (f & x & y & Hxy & H). exists f, x, y. split_and!; [|done|naive_solver].
    apply (ok_inc _ _ G _ _ _ Hrow). exists x, y. split; [done|]. naive_solver.
Qed.

(** ** Cutting a list into chains *)
Section runs.
  Context (nb : nat → nat → bool).
  Fixpoint runs (l : list nat) : list (list nat) :=
    match l with
    | [] => []
    | x :: l' => match runs l' with
                 | (y :: r) :: rs => if nb x y then (x :: y :: r) :: rs else [x] :: (y :: r) :: rs
                 | rs => [x] :: rs
                 end
    end.
  Definition chain (l : list nat) : Prop :=
    ∀ i a b, l !! i = Some a → l !! S i = Some b → nb a b = true.

  Lemma runs_cons x l : ∃ r rs, runs (x :: l) = (x :: r) :: rs.
  Proof. simpl. destruct (runs l) as [|[|y r] rs]; [by eexists _, _..|]. destruct (nb x y); by eexists _, _. Qed.
  Lemma runs_concat l : concat (runs l) = l.
  Proof.
    induction l as [|x l IH]; [done|]. simpl. destruct (runs l) as [|[|y r] rs].
    - simpl in *. by rewrite <- IH.
    - simpl in *. by rewrite IH.
    - destruct (nb x y); simpl in *; by rewrite IH.
  Qed.
  Lemma runs_ne l p : p ∈ runs l → p ≠ [].
  Proof.
    revert p. induction l as [|x l IH]; intros p; simpl; [by intros ?%elem_of_nil|].
    destruct (runs l) as [|[|y r] rs] eqn:E.
    - intros ->%elem_of_list_singleton. done.
    - exfalso. apply (IH []); [by left|done].
    - destruct (nb x y); intros [->|Hp]%elem_of_cons; try done; apply IH; [by right|done].
  Qed.
  Lemma runs_chain l p : p ∈ runs l → chain p.
  Proof.
    revert p. induction l as [|x l IH]; intros p; simpl; [by intros ?%elem_of_nil|].
    assert (chain [x]) as H1. { intros [|i] a b ? ?; done. }
    destruct (runs l) as [|[|y r] rs] eqn:E.
    - intros ->%elem_of_list_singleton. done.
    - intros [->|Hp]%elem_of_cons; [done|]. by apply IH.
    - destruct (nb x y) eqn:En; (intros [->|Hp]%elem_of_cons; [|by apply IH; auto; right]); [|done].
      intros [|i] a b Ha Hb; simpl in *; [by simplify_eq|].
      apply (IH (y :: r) ltac:(left) i); done.
  Qed.
  (** two related neighbours of the list stay neighbours in one piece *)
  Lemma runs_keep l i a b : l !! i = Some a → l !! S i = Some b → nb a b = true →
    ∃ p j, p ∈ runs l ∧ p !! j = Some a ∧ p !! S j = Some b.
  Proof.
    revert i. induction l as [|x l IH]; intros i Ha Hb Hab; [done|].
    destruct i as [|i].
    - simpl in Ha. simplify_eq. destruct l as [|y l]; [done|]. simpl in Hb. simplify_eq.
      destruct (runs_cons b l) as (r & rs & E). change (runs (a :: b :: l)) with
        (match runs (b :: l) with (y :: r) :: rs => if nb a y then (a :: y :: r) :: rs else [a] :: (y :: r) :: rs
         | rs => [a] :: rs end). rewrite E, Hab.
      exists (a :: b :: r), 0. split; [by left|done].
    - destruct (IH i Ha Hb Hab) as (p & j & Hp & H1 & H2).
      simpl. destruct (runs l) as [|[|y r] rs] eqn:E.
      + by apply elem_of_nil in Hp.
      + exists p, j. split; [by right|done].
      + destruct (nb x y); [|exists p, j; split; [by right|done]].
        apply elem_of_cons in Hp as [->|Hp]; [|exists p, j; split; [by right|done]].
        exists (x :: y :: r), (S j). split; [by left|done].
  Qed.
  Lemma chain_tail x l : chain (x :: l) → chain l.
  Proof. intros H i a b Ha Hb. apply (H (S i)); done. Qed.
  Lemma runs_one l : l ≠ [] → chain l → runs l = [l].
  Proof.
    induction l as [|x l IH]; [done|]. intros _ Hc. destruct l as [|y l]; [done|].
    change (runs (x :: y :: l)) with
        (match runs (y :: l) with (z :: r) :: rs => if nb x z then (x :: z :: r) :: rs else [x] :: (z :: r) :: rs
         | rs => [x] :: rs end). rewrite IH; [|done|by eapply chain_tail].
    by rewrite (Hc 0 x y eq_refl eq_refl).
  Qed.
  Lemma runs_cut p q x y : chain p → last p = Some x → head q = Some y → nb x y = false →
    runs (p ++ q) = p :: runs q.
  Proof.
    induction p as [|z p IH]; [done|]. intros Hc Hl Hh Hn.
    destruct q as [|y' q]; [done|]. simpl in Hh. simplify_eq.
    destruct p as [|z' p].
    - simpl in Hl. simplify_eq. simpl app. destruct (runs_cons y q) as (r & rs & E).
      change (runs (x :: y :: q)) with
        (match runs (y :: q) with (z :: r) :: rs => if nb x z then (x :: z :: r) :: rs else [x] :: (z :: r) :: rs
         | rs => [x] :: rs end). rewrite E, Hn. done.
    - change (runs ((z :: z' :: p) ++ y :: q)) with
        (match runs ((z' :: p) ++ y :: q) with (w :: r) :: rs => if nb z w then (z :: w :: r) :: rs else [z] :: (w :: r) :: rs
         | rs => [z] :: rs end). rewrite IH; [|by eapply chain_tail|done|done|done].
      by rewrite (Hc 0 z z' eq_refl eq_refl).
  Qed.
End runs.

Lemma piece_lookup {A} (l : list A) lo hi i : lo + i < hi → take (hi - lo) (drop lo l) !! i = l !! (lo + i).
Proof. intros H. rewrite lookup_take by lia. apply lookup_drop. Qed.

(** the loop over one column *)
Lemma split_loop_spec g nb column news :
  (∀ i a b, column !! i = Some a → column !! S i = Some b → neighbours g a b = Some (nb a b)) →
  column ≠ [] →
  ∃ first ps, for_loop (length column - 1) 1 (split_body g column) (0, news) = Some (first, news ++ ps) ∧
    runs nb column = ps ++ [drop first column].
Proof.
  intros Hnb Hne. assert (0 < length column) as Hlen by (destruct column; simpl in *; [done|lia]).
  set (P := λ (k : nat) (s : nat * list (list nat)), ∃ ps, s.1 < k ∧ s.2 = news ++ ps ∧
     runs nb column = ps ++ runs nb (drop s.1 column) ∧ chain nb (take (k - s.1) (drop s.1 column))).
  destruct (for_loop_inv P (length column - 1) 1 (split_body g column) (0, news)) as ([first news'] & E & HP).
  - exists []. simpl. split_and!; [lia|by rewrite app_nil_r|by rewrite drop_0|].
    intros i a b Ha Hb. apply lookup_lt_Some in Hb. rewrite take_length in Hb. lia.
  - intros k [f n'] Hk (ps & Hf & Hn' & Hr & Hc). cbn [fst snd] in *. subst n'. unfold split_body.
    assert (is_Some (column !! (k - 1))) as [c0 E0] by (apply lookup_lt_is_Some; lia).
    assert (is_Some (column !! k)) as [c1 E1] by (apply lookup_lt_is_Some; lia).
    rewrite E0. cbn [mbind option_bind]. rewrite E1. cbn [mbind option_bind].
    rewrite (Hnb (k - 1) c0 c1) by (rewrite <- ?E1; try done; f_equal; lia). cbn [mbind option_bind].
    destruct (nb c0 c1) eqn:En; cbn [negb].
    + eexists. split; [done|]. exists ps. cbn [fst snd]. split_and!; [lia|done|done|].
      intros i a b Ha Hb. pose proof (lookup_lt_Some _ _ _ Hb) as HL. rewrite take_length, drop_length in HL.
      rewrite piece_lookup in Ha by lia. rewrite piece_lookup in Hb by lia.
      destruct (decide (f + S i = k)) as [Eq|Ne].
      * rewrite Eq in Hb. replace (f + i) with (k - 1) in Ha by lia. by simplify_eq.
      * apply (Hc i a b); rewrite piece_lookup by lia; done.
    + rewrite slice_Some by lia. cbn [mbind option_bind]. eexists. split; [done|].
      exists (ps ++ [take (k - f) (drop f column)]). cbn [fst snd]. split_and!.
      * lia.
      * by rewrite app_assoc.
      * rewrite Hr, <- app_assoc. f_equal. simpl.
        rewrite <- (take_drop (k - f) (drop f column)) at 1.
        rewrite drop_drop. replace (f + (k - f)) with k by lia.
        apply (runs_cut nb _ _ c0 c1); try done.
        -- rewrite last_lookup, take_length, drop_length, Nat.min_l by lia. rewrite piece_lookup by lia.
           rewrite <- E0. f_equal. lia.
        -- rewrite head_lookup, lookup_drop, <- E1. f_equal. lia.
      * intros i a b Ha Hb. apply lookup_lt_Some in Hb. rewrite take_length in Hb. lia.
  - destruct HP as (ps & Hf & Hn & Hr & Hc). cbn [fst snd] in *. exists first, ps. split.
    + by rewrite E, Hn.
    + rewrite Hr. f_equal. apply runs_one.
      * intros HH. apply (f_equal length) in HH. rewrite drop_length in HH. simpl in HH. lia.
      * rewrite take_ge in Hc by (rewrite drop_length; lia). done.
Qed.

(** all columns *)
Lemma split_all g nb (cols : list (list nat)) :
  (∀ col i a b, col ∈ cols → col !! i = Some a → col !! S i = Some b → neighbours g a b = Some (nb a b)) →
  (∀ col, col ∈ cols → col ≠ []) →
  ∃ cols' news, for_loop (length cols) 0 (split_column g) (cols, []) = Some (cols', news) ∧
    cols' ++ news ≡ₚ concat (runs nb <$> cols).
Proof.
  intros Hnb Hne.
  set (P := λ (k : nat) (s : list (list nat) * list (list nat)), ∃ lasts, length lasts = k ∧
      s.1 = lasts ++ drop k cols ∧ lasts ++ s.2 ≡ₚ concat (runs nb <$> take k cols)).
  destruct (for_loop_inv P (length cols) 0 (split_column g) (cols, [])) as ([cols' news] & E & HP).
  - exists []. split_and!; done.
  - intros k [cs news] Hk (lasts & Hl & Hcs & Hp). cbn [fst snd] in *. unfold split_column.
    assert (is_Some (cols !! k)) as [column Ec] by (apply lookup_lt_is_Some; lia).
    assert (cs !! k = Some column) as Ecs.
    { rewrite Hcs, lookup_app_r by lia. rewrite lookup_drop, <- Ec. f_equal. lia. }
    rewrite Ecs. cbn [mbind option_bind].
    destruct (split_loop_spec g nb column news) as (first & ps & EL & ER).
    { intros i a b. apply Hnb. by eapply elem_of_list_lookup_2. }
    { apply Hne. by eapply elem_of_list_lookup_2. }
    rewrite EL. cbn [mbind option_bind].
    assert (HU : (if decide (first ≠ 0) then upd cs k (drop first column) else Some cs)
      = Some (<[k:=drop first column]> cs)).
    { case_decide as HH.
      - rewrite upd_Some; [done|]. by eapply lookup_lt_Some.
      - destruct first; [|lia]. rewrite drop_0. by rewrite list_insert_id. }
    rewrite HU. cbn [mbind option_bind]. eexists. split; [done|].
    exists (lasts ++ [drop first column]). cbn [fst snd]. split_and!.
    + rewrite app_length. simpl. lia.
    + rewrite Hcs. rewrite (drop_S _ _ _ Ec). rewrite insert_app_r_alt by lia. rewrite Hl, Nat.sub_diag.
      simpl. rewrite <- app_assoc. simpl. by rewrite Nat.add_1_r.
    + rewrite Nat.add_1_r, (take_S_r _ _ _ Ec), fmap_app, concat_app. simpl. rewrite app_nil_r, ER, <- Hp.
      clear. solve_Permutation.
  - destruct HP as (lasts & Hl & Hcs & Hp). cbn [fst snd] in *. exists cols', news. split; [done|].
    rewrite Hcs, drop_ge by lia. rewrite app_nil_r, Hp. rewrite take_ge by lia. done.
Qed.

(** ** Collecting the cells of each horizontal index *)
Lemma map_find_cons k k' v m : map_find k ((k', v) :: m) = if decide (k = k') then Some v else map_find k m.
Proof. done. Qed.

Lemma horizontal_index index d0 d1 : 0 < d0 → 0 < d1 →
  index mod d0 + (index - index / d0 / d1 * d0 * d1) / d0 * d0 = index mod (d0 * d1).
Proof.
  intros H0 H1. rewrite Nat.div_div by lia.
  assert (index - index / (d0 * d1) * d0 * d1 = index mod (d0 * d1)) as ->.
  { pose proof (Nat.div_mod_eq index (d0 * d1)). lia. }
  rewrite Nat.mod_mul_r by lia.
  replace ((index mod d0 + d0 * ((index / d0) mod d1)) / d0) with ((index / d0) mod d1); [lia|].
  symmetry. rewrite (Nat.mul_comm d0), Nat.div_add by lia. rewrite Nat.div_small; [done|]. apply Nat.mod_upper_bound. lia.
Qed.

Section collect.
  Context (d0 d1 : nat) (gc : option (list nat)) (key : nat → nat).
  Context (H0 : 0 < d0) (H1 : 0 < d1).

  Lemma collect_spec n :
    (∀ c, c < n → ∃ ix, index_of gc c = Some ix ∧ key c = ix mod (d0 * d1)) →
    ∃ m keys, for_loop n 0 (collect d0 d1 gc) ([], []) =
        Some (m, (λ k, filter (λ c, key c = k) (seq 0 n)) <$> keys) ∧
      NoDup keys ∧ (∀ k, k ∈ keys ↔ ∃ c, c < n ∧ key c = k).
  Proof.
    intros Hix.
    set (P := λ (n : nat) (s : list (nat * nat) * list (list nat)), ∃ keys,
        s.2 = ((λ k, filter (λ c, key c = k) (seq 0 n)) <$> keys) ∧ NoDup keys ∧
        (∀ k, k ∈ keys ↔ ∃ c, c < n ∧ key c = k) ∧
        (∀ k l, map_find k s.1 = Some l ↔ keys !! l = Some k)).
    destruct (for_loop_inv P n 0 (collect d0 d1 gc) ([], [])) as ([m cols] & E & HP).
    - exists []. split_and!; [done|constructor|..].
      + intros k. split; [by intros ?%elem_of_nil|]. intros (c & ? & _). lia.
      + intros k l. simpl. by rewrite lookup_nil.
    - intros c [m cols] Hc (keys & Hcols & Hnd & Hmem & Hm). cbn [fst snd] in *.
      destruct (Hix c ltac:(lia)) as (ix & Eix & Hkey).
      unfold collect. rewrite Eix. cbn [mbind option_bind]. rewrite decide_False by lia.
      rewrite horizontal_index by done. rewrite <- Hkey.
      assert (Hseq : seq 0 (c + 1) = seq 0 c ++ [c]) by (rewrite Nat.add_1_r; apply seq_S).
      assert (Hfil : ∀ k, filter (λ c, key c = k) (seq 0 (c + 1)) =
        filter (λ c, key c = k) (seq 0 c) ++ (if decide (key c = k) then [c] else [])).
      { intros k. rewrite Hseq, filter_app, filter_cons, filter_nil. done. }
      destruct (map_find (key c) m) as [l|] eqn:Ef.
      + pose proof (proj1 (Hm _ _) Ef) as Hl.
        assert (cols !! l = Some (filter (λ c', key c' = key c) (seq 0 c))) as Ecl.
        { rewrite Hcols, list_lookup_fmap, Hl. done. }
        rewrite Ecl. cbn [mbind option_bind]. rewrite upd_Some by (by eapply lookup_lt_Some).
        cbn [mbind option_bind]. eexists. split; [done|]. exists keys. cbn [fst snd]. split_and!; [|done| |done].
        * apply list_eq. intros i. rewrite list_lookup_fmap.
          destruct (decide (i = l)) as [->|Ne].
          -- rewrite list_lookup_insert by (by eapply lookup_lt_Some). rewrite Hl. cbn [fmap option_fmap option_map].
             rewrite Hfil, decide_True by done. done.
          -- rewrite list_lookup_insert_ne by done. rewrite Hcols, list_lookup_fmap.
             destruct (keys !! i) as [k|] eqn:Ek; [|done]. cbn [fmap option_fmap option_map].
             rewrite Hfil, decide_False; [by rewrite app_nil_r|]. intros <-.
             apply Ne. by eapply NoDup_lookup.
        * intros k. rewrite Hmem. split.
          -- intros (c' & ? & ?). exists c'. split; [lia|done].
          -- intros (c' & Hc' & <-). destruct (decide (c' = c)) as [->|].
             ++ apply Hmem. by eapply elem_of_list_lookup_2.
             ++ exists c'. split; [lia|done].
      + assert (key c ∉ keys) as Hnew.
        { intros [l Hl]%elem_of_list_lookup. apply Hm in Hl. congruence. }
        assert (length cols = length keys) as Hlen by (rewrite Hcols; apply fmap_length).
        rewrite lookup_app_r, Nat.sub_diag by lia. cbn [lookup list_lookup mbind option_bind].
        rewrite upd_Some by (rewrite app_length; simpl; lia). cbn [mbind option_bind].
        eexists. split; [done|]. exists (keys ++ [key c]). cbn [fst snd]. split_and!.
        * rewrite insert_app_r_alt, Nat.sub_diag by lia. simpl. rewrite fmap_app. f_equal.
          -- rewrite Hcols. apply list_fmap_ext. intros i k Hk. rewrite Hfil, decide_False; [by rewrite app_nil_r|].
             intros <-. apply Hnew. by eapply elem_of_list_lookup_2.
          -- simpl. rewrite Hfil, decide_True by done. f_equal.
             assert (filter (λ c', key c' = key c) (seq 0 c) = []) as ->; [|done].
             destruct (filter (λ c', key c' = key c) (seq 0 c)) as [|x r] eqn:Ex; [done|]. exfalso.
             assert (x ∈ x :: r) as Hx by left. rewrite <- Ex in Hx.
             apply elem_of_list_filter in Hx as [Hxk Hx]. apply elem_of_seq in Hx.
             apply Hnew. apply Hmem. exists x. split; [lia|done].
        * apply NoDup_app. split_and!; [done| |apply NoDup_singleton]. intros x Hx ->%elem_of_list_singleton. done.
        * intros k. rewrite elem_of_app, elem_of_list_singleton, Hmem. split.
          -- intros [(c' & ? & ?)| ->]; [exists c'|exists c]; split; (lia || done).
          -- intros (c' & Hc' & <-). destruct (decide (c' = c)) as [->|]; [by right|left].
             exists c'. split; [lia|done].
        * intros k l. rewrite map_find_cons. case_decide as Hk.
          -- subst k. rewrite Hlen. split.
             ++ intros [= <-]. by rewrite lookup_app_r, Nat.sub_diag.
             ++ intros HL. destruct (decide (l < length keys)) as [|].
                ** rewrite lookup_app_l in HL by done. exfalso. apply Hnew. by eapply elem_of_list_lookup_2.
                ** apply lookup_lt_Some in HL as HL'. rewrite app_length in HL'. simpl in HL'. f_equal. lia.
          -- rewrite Hm. destruct (decide (l < length keys)).
             ++ by rewrite lookup_app_l.
             ++ split; [intros HL; apply lookup_lt_Some in HL; lia|].
                intros HL. rewrite lookup_app_r in HL by lia.
                destruct (l - length keys) as [|j]; [simpl in HL; congruence|]. by rewrite lookup_nil in HL || done.
    - destruct HP as (keys & Hcols & Hnd & Hmem & _). cbn [fst snd] in *. exists m, keys.
      rewrite E, Hcols. done.
  Qed.
End collect.

Lemma concat_filter_perm (key : nat → nat) (l : list nat) keys :
  NoDup keys → (∀ c, c ∈ l → key c ∈ keys) → concat ((λ k, filter (λ c, key c = k) l) <$> keys) ≡ₚ l.
Proof.
  revert l. induction keys as [|k keys IH]; intros l Hnd Hin; rewrite ?fmap_cons; cbn [concat].
  - destruct l as [|c l]; [done|]. exfalso.  apply (elem_of_nil (key c)). apply Hin. left.
  - apply NoDup_cons in Hnd as [Hk Hnd].
    assert (concat ((λ k, filter (λ c, key c = k) l) <$> keys) =
      concat ((λ k', filter (λ c, key c = k') (filter (λ c, key c ≠ k) l)) <$> keys)) as -> .
    2:{ rewrite IH; [|done|].
        - clear. induction l as [|x l IH]; [done|]. rewrite !filter_cons. repeat case_decide; try done; simpl.
          + by rewrite IH.
          + by rewrite <- Permutation_middle, IH. 
        - intros c [Hc1 Hc2]%elem_of_list_filter. apply Hin in Hc2. apply elem_of_cons in Hc2 as [?|?]; done. }
    f_equal. apply list_fmap_ext. intros i k' Hk'. rewrite list_filter_filter.
    apply list_filter_iff. intros c. split; [|naive_solver]. intros <-. split; [done|]. intros Eq. apply Hk.
    rewrite <- Eq. by eapply elem_of_list_lookup_2.
Qed.
