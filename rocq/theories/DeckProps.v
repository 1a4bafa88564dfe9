(** C45: reading records of numbers. *)
From Coq Require Import Ascii.
From Verif Require Import Base DeckModel DeckSpec.
Unset Default Proof Using.

(** ** Characters *)
Lemma is_space_spec c : is_space c = true ↔ space c.
Proof.
  unfold is_space, space. rewrite orb_true_iff, andb_true_iff, Nat.eqb_eq, !Nat.leb_le. split.
  - intros [H|H]; [left; rewrite <- (ascii_nat_embedding c), H; done|right]. exists (nat_of_ascii c). split; [lia|]. symmetry. apply ascii_nat_embedding.
  - intros [->|(n & Hn & ->)]; [by left|right]. rewrite nat_ascii_embedding by lia. lia.
Qed.
Lemma is_space_false c : is_space c = false ↔ ¬ space c.
Proof. rewrite <- is_space_spec. by destruct (is_space c). Qed.
Lemma newline_space : space newline.
Proof. right. exists 10. split; [lia|done]. Qed.
Lemma skip_space_spec t : ∃ ws, t = ws ++ skip_space t ∧ Forall space ws ∧ ∀ c, head (skip_space t) = Some c → ¬ space c.
Proof.
  induction t as [|c t (ws & E & Hw & Hh)]; cbn [skip_space]; [by exists []|].
  destruct (is_space c) eqn:Ec.
  - exists (c :: ws). split; [cbn; by f_equal|]. split; [constructor; [by apply is_space_spec|done]|done].
  - exists []. split; [done|]. split; [done|]. intros c' [= <-]. by apply is_space_false.
Qed.
Lemma skip_space_app ws c t : Forall space ws → ¬ space c → skip_space (ws ++ c :: t) = c :: t.
Proof.
  intros Hw Hc. induction Hw as [|x ws Hx _ IH]; cbn [skip_space app].
  - by apply is_space_false in Hc as ->.
  - by apply is_space_spec in Hx as ->.
Qed.
Lemma split_word_spec t w r : split_word t = (w, r) → t = w ++ r ∧ Forall (λ c, ¬ space c) w ∧ Forall space (take 1 r).
Proof.
  revert w r. induction t as [|c t IH]; intros w r E; cbn [split_word] in E; [simplify_eq; split; [done|]; split; constructor|].
  destruct (is_space c) eqn:Ec.
  - simplify_eq. split; [done|]. split; [done|]. constructor; [by apply is_space_spec|constructor].
  - destruct (split_word t) as [w' r'] eqn:E'. simplify_eq. destruct (IH w' r eq_refl) as (-> & Hw & Hr).
    split; [done|]. split; [constructor; [by apply is_space_false|done]|done].
Qed.
Lemma split_word_app w r : Forall (λ c, ¬ space c) w → Forall space (take 1 r) → split_word (w ++ r) = (w, r).
Proof.
  intros Hw Hr. induction Hw as [|c w Hc _ IH]; cbn [app].
  - destruct r as [|c r]; [done|]. cbn [split_word]. inversion Hr as [|? ? Hc]. by apply is_space_spec in Hc as ->.
  - cbn [split_word]. apply is_space_false in Hc as ->. by rewrite IH.
Qed.
Lemma behind_line_Some t r : behind_line t = Some r → ∃ l, t = l ++ newline :: r ∧ newline ∉ l.
Proof.
  induction t as [|c t IH]; cbn [behind_line]; [done|]. destruct (Ascii.eqb_spec c "010") as [->|Hc].
  - intros [= <-]. exists []. split; [done|apply not_elem_of_nil].
  - intros E. destruct (IH E) as (l & -> & Hl). exists (c :: l). split; [done|]. rewrite not_elem_of_cons. split; [|done]. by apply not_eq_sym.
Qed.
Lemma behind_line_app l r : newline ∉ l → behind_line (l ++ newline :: r) = Some r.
Proof.
  induction l as [|c l IH]; cbn [behind_line app]; [done|]. rewrite not_elem_of_cons. intros [Hc Hl].
  destruct (Ascii.eqb_spec c "010") as [->|_]; [done|auto].
Qed.
Lemma behind_line_None t : behind_line t = None ↔ newline ∉ t.
Proof.
  induction t as [|c t IH]; cbn [behind_line]; [split; [intros; apply not_elem_of_nil|done]|]. rewrite not_elem_of_cons.
  destruct (Ascii.eqb_spec c "010") as [->|Hc]; [by split; [|intros []]|]. rewrite IH. split; [|by intros []]. intros. split; [by apply not_eq_sym|done].
Qed.

Section props.
Context {T : Type}.
Variables (number : list ascii → option T * list ascii) (to_int : T → Z) (zero : T).
Notation entry := (entry number to_int).
Notation record := (record number to_int).
Notation comment := (comment number).
Notation ended := (ended number).
Notation loop := (defaulted_loop number to_int zero).
Notation read := (read_defaulted number to_int zero).

(** ** Filling *)
Lemma says_length (l : list (@item T)) : length (concat (map says l)) = total l.
Proof using.
  induction l as [|x l IH]; [done|]. cbn [map concat]. rewrite app_length, IH. unfold total. cbn [sum_list_with]. f_equal.
  destruct x; cbn [says count]; rewrite ?replicate_length; done.
Qed.
Lemma total_app (l l' : list (@item T)) : total (l ++ l') = total l + total l'.
Proof using. unfold total. by rewrite sum_list_with_app. Qed.
Lemma filled_nil (data : list T) : filled [] data data.
Proof using. split; [done|]. intros i Hi. done. Qed.
Lemma filled_step l x (data d1 d2 : list T) : filled l data d1 → length d2 = length d1 →
  (∀ i, i < length d1 → d2 !! i = if decide (total l ≤ i < total l + count x) then match x with Val v | Rep _ v => Some v | Def _ => d1 !! i end else d1 !! i) →
  filled (l ++ [x]) data d2.
Proof using.
  intros [L H] L2 H2. split; [congruence|]. intros i Hi. rewrite H2 by lia. rewrite map_app, concat_app. cbn [map concat]. rewrite app_nil_r.
  case_decide as Hd.
  - rewrite lookup_app_r by (rewrite says_length; lia). rewrite says_length.
    destruct x as [v|n v|n]; cbn [says count] in *.
    + by replace (i - total l) with 0 by lia.
    + by rewrite lookup_replicate_2 by lia.
    + rewrite lookup_replicate_2 by lia. rewrite H by lia. rewrite lookup_ge_None_2; [done|]. rewrite says_length. lia.
  - rewrite H by lia. destruct (decide (i < total l)).
    + by rewrite lookup_app_l by (rewrite says_length; lia).
    + rewrite lookup_app_r by (rewrite says_length; lia). rewrite (lookup_ge_None_2 (concat (map says l))) by (rewrite says_length; lia).
      rewrite (lookup_ge_None_2 (says x)); [done|]. rewrite says_length. destruct x; cbn [says count length] in *; rewrite ?replicate_length; lia.
Qed.
Lemma put_many_ok n (v : T) : ∀ data p, p + n ≤ length data →
  ∃ data', put_many data (Z.of_nat p) n v = Some data' ∧ length data' = length data ∧ ∀ i, data' !! i = if decide (p ≤ i < p + n) then Some v else data !! i.
Proof using.
  induction n as [|n IH]; intros data p Hp; cbn [put_many].
  - exists data. split; [done|]. split; [done|]. intros i. by rewrite decide_False by lia.
  - unfold put. rewrite decide_False by lia. rewrite Nat2Z.id, upd_Some by lia. cbn [mbind option_bind].
    replace (Z.of_nat p + 1)%Z with (Z.of_nat (p + 1)) by lia.
    destruct (IH (<[p := v]> data) (p + 1)) as (d & -> & L & H); [rewrite insert_length; lia|]. rewrite insert_length in L.
    exists d. split; [done|]. split; [done|]. intros i. rewrite H. case_decide as H1; case_decide as H2; try lia; try done.
    + replace i with p by lia. apply list_lookup_insert. lia.
    + apply list_lookup_insert_ne. lia.
Qed.
Lemma put_many_fail n (v : T) : ∀ data p, length data < p + n → 0 < n → put_many data (Z.of_nat p) n v = None.
Proof using.
  induction n as [|n IH]; intros data p Hp Hn; [lia|]. cbn [put_many]. unfold put. rewrite decide_False by lia. rewrite Nat2Z.id.
  destruct (decide (p < length data)).
  - rewrite upd_Some by lia. cbn [mbind option_bind]. replace (Z.of_nat p + 1)%Z with (Z.of_nat (p + 1)) by lia.
    apply IH; rewrite ?insert_length; lia.
  - by rewrite upd_None by lia.
Qed.

(** ** Records *)
Lemma record_app t l t1 l' t2 : record t l t1 → record t1 l' t2 → record t (l ++ l') t2.
Proof using. intros H H'. induction H; cbn [app]; [done|eapply record_comment; eauto|eapply record_entry; eauto]. Qed.
Lemma record_snoc t l t1 x t2 : record t l t1 → entry t1 x t2 → record t (l ++ [x]) t2.
Proof using. intros H H'. eapply record_app; [exact H|]. eapply record_entry; [exact H'|constructor]. Qed.
Lemma record_snoc_comment t l t1 t2 : record t l t1 → comment t1 t2 → record t l t2.
Proof using. intros H H'. rewrite <- (app_nil_r l). eapply record_app; [exact H|]. eapply record_comment; [exact H'|constructor]. Qed.

Hypothesis number_empty : number [] = (None, []).
Hypothesis number_some : ∀ t v r, number t = (Some v, r) → length r < length t.
Hypothesis number_none : ∀ t r, number t = (None, r) → length r ≤ length t.

(** The four ways to go on after [number] has failed. *)
Lemma word_cases t r : number t = (None, r) →
  let '(w, s) := get_word (Stream r (bool_decide (r = [])) false) in
  (w = ["/"%char] → ∀ s', ignore_line s = s' → st_fail s' = false → ended t (st_rest s')) ∧
  (w ≠ ["/"%char] → head w = Some "-"%char → ∀ s', ignore_line s = s' → st_fail s' = true ∨ (st_eof s' = true ∧ st_rest s' = []) ∨ (st_eof s' = false ∧ st_fail s' = false ∧ comment t (st_rest s') ∧ length (st_rest s') < length t)).
Proof using number_none.
  clear number_some number_empty.
  intros E. pose proof (number_none _ _ E) as Hlen. clear number_none. unfold get_word, good. cbn [st_eof st_fail st_rest negb].
  case_bool_decide as Hr; cbn [negb andb]; [by split|].
  destruct (skip_space_spec r) as (ws & Er & Hws & Hh). destruct (skip_space r) as [|c q] eqn:Eq; [by split|].
  destruct (split_word (c :: q)) as [w r'] eqn:Ew. apply split_word_spec in Ew as (Ecq & Hw & Hr').
  split.
  - intros -> s' <- Hf. unfold ignore_line, good in *. cbn [st_eof st_fail st_rest negb] in *.
    case_bool_decide as Hn; cbn [negb andb] in *; [done|]. destruct (behind_line r') as [t'|] eqn:Eb; cbn [st_rest] in *.
    + apply behind_line_Some in Eb as (l & -> & Hl). eapply (ended_line _ _ ws l t'); [|done|done|].
      * rewrite E, Er, Ecq. done.
      *
        destruct l as [|a l]; [constructor|]. exact Hr'.
    + apply behind_line_None in Eb. eapply (ended_file _ _ ws r'); [|done|done|done|done]. by rewrite E, Er, Ecq.
  - intros _ Hhd s' <-. destruct w as [|d w]; [done|]. cbn in Hhd. injection Hhd as ->.
    unfold ignore_line, good in *. cbn [st_eof st_fail st_rest negb] in *.
    case_bool_decide as Hn; cbn [negb andb st_fail] in *; [by left|]. destruct (behind_line r') as [t'|] eqn:Eb; cbn [st_rest st_eof st_fail] in *; [|by right; left].
    right; right. split; [done|]. split; [done|]. apply behind_line_Some in Eb as (l & -> & Hl). split.
    + eapply (comment_line _ _ ws w l t'); [|done| |done|].
      * rewrite E, Er, Ecq. done.
      * by inversion Hw.
      * destruct l as [|a l]; [constructor|]. exact Hr'.
    + rewrite Er, Ecq in Hlen. rewrite !app_length in Hlen. cbn [length] in Hlen. lia.
Qed.

(** What a result says about the text. *)
Definition explains (t0 : list ascii) (data0 : list T) (max : nat) (r : option (option (list T * Z * stream))) : Prop :=
  match r with
  | Some (Some (data, nv, s)) => ∃ l t, record t0 l t ∧ nv = Z.of_nat (total l) ∧ filled l data0 data ∧ total (removelast l) < max ∧
      ((total l < max ∧ ended t (st_rest s)) ∨ (max ≤ total l ∧ st_rest s = t))
  | Some None => True
  | None => ∃ l t v r, record t0 l t ∧ number t = (Some v, "*"%char :: r) ∧ total l < max ∧ (Z.of_nat (length data0) < Z.of_nat (total l) + to_int v)%Z
  end.
Lemma loop_failed fuel data nv max s : 0 < fuel → st_fail s = true → loop fuel data nv max s = Some None.
Proof using. clear. intros Hf Hs. destruct fuel; [lia|]. cbn [defaulted_loop]. by rewrite Hs. Qed.
Lemma loop_eof fuel data nv max s : 0 < fuel → st_eof s = true → loop fuel data nv max s = Some None.
Proof using.
  clear. intros Hf Hs. destruct fuel; [lia|]. cbn [defaulted_loop]. destruct s as [r e f]. cbn [st_eof] in Hs. subst e. by destruct f.
Qed.
Lemma removelast_snoc {A} (l : list A) x : removelast (l ++ [x]) = l.
Proof using. apply removelast_last. Qed.
Lemma removelast_total (l : list (@item T)) : total (removelast l) ≤ total l.
Proof using. clear. induction l as [|x l _] using rev_ind; [done|]. rewrite removelast_snoc, total_app. lia. Qed.

Section loop.
Variables (t0 : list ascii) (data0 : list T) (max : nat).
Hypothesis Hmax : max ≤ length data0.
Hypothesis Hnn : ∀ l t, record t0 l t → Forall nonneg l.
Lemma loop_sound : ∀ fuel l t e data, record t0 l t → total l < max → filled l data0 data → length t + 1 < fuel →
  explains t0 data0 max (loop fuel data (Z.of_nat (total l)) (Z.of_nat max) (Stream t e false)).
Proof using number_empty number_some number_none Hmax Hnn.
  induction fuel as [|fuel IH]; intros l t e data Hrec Htot Hfill Hf; [lia|]. cbn [defaulted_loop st_fail].
  assert (Hnext : ∀ x t1 e1 f1 d1, length t1 < length t → length d1 = length data → (f1 = false → entry t x t1) →
    (∀ i, i < length data → d1 !! i = if decide (total l ≤ i < total l + count x) then match x with Val v | Rep _ v => Some v | Def _ => data !! i end else data !! i) →
    explains t0 data0 max (if decide (Z.of_nat (total l + count x) >= Z.of_nat max)%Z then if f1 then Some None else Some (Some (d1, Z.of_nat (total l + count x), Stream t1 e1 f1))
      else loop fuel d1 (Z.of_nat (total l + count x)) (Z.of_nat max) (Stream t1 e1 f1))).
  { intros x t1 e1 f1 d1 Hlt Hd1 Hx Hval. destruct f1.
    - case_decide; [done|]. rewrite loop_failed; [done|lia|done].
    - specialize (Hx eq_refl). pose proof (record_snoc _ _ _ _ _ Hrec Hx) as Hr. pose proof (filled_step _ _ _ _ _ Hfill Hd1 Hval) as Hfl.
      assert (Et : total l + count x = total (l ++ [x])) by (rewrite total_app; unfold total; cbn; lia). rewrite Et.
      case_decide.
      + exists (l ++ [x]), t1. rewrite removelast_snoc. split; [done|]. split; [done|]. split; [done|]. split; [done|]. right. split; [lia|done].
      + apply IH; [done|lia|done|lia]. }
  destruct Hfill as [Ld Hd] eqn:Efill. clear Efill.
  destruct e.
  { cbn. done. }
  unfold get_number at 1. cbn [good st_eof st_fail negb andb st_rest]. destruct (number t) as [[v|] r] eqn:En.
  2: { cbn [st_rest st_eof]. pose proof (word_cases t r En) as Hw. destruct (get_word _) as [w s]. destruct Hw as [Hw1 Hw2].
    destruct (decide (w = ["/"%char])) as [Ew|Ew].
    - destruct (st_fail (ignore_line s)) eqn:Ef; [done|]. exists l, t. split; [done|]. split; [done|]. split; [done|]. split.
      + pose proof (removelast_total l). lia.
      + left. split; [done|]. by eapply Hw1.
    - destruct (decide (head w = _)) as [Eh|Eh]; [|done]. rewrite decide_False by lia.
      destruct (Hw2 Ew Eh _ eq_refl) as [Hs|[Hs|Hs]].
      + rewrite loop_failed; [done|lia|done].
      + rewrite loop_eof; [done|lia|by destruct Hs].
      + destruct (ignore_line s) as [t1 e1 f1]. cbn [st_eof st_fail st_rest] in Hs. destruct Hs as (-> & -> & Hc & Hlt).
        apply IH; [by eapply record_snoc_comment|done|done|lia]. }
  pose proof (number_some _ _ _ En) as Hlr.
  assert (Hval : ∀ c r', r = c :: r' → c ≠ "*"%char → entry t (Val v) r) by (intros c r' -> Hc; by constructor).
  assert (Hput : put data (Z.of_nat (total l)) v = Some (<[total l := v]> data)).
  { unfold put. rewrite decide_False by lia. rewrite Nat2Z.id. apply upd_Some. lia. }
  assert (Hlook : ∀ i, i < length data → <[total l := v]> data !! i = if decide (total l ≤ i < total l + count (Val v)) then Some v else data !! i).
  { intros i Hi. cbn [count]. case_decide; [replace i with (total l) by lia; apply list_lookup_insert; lia|apply list_lookup_insert_ne; lia]. }
  assert (E1 : (Z.of_nat (total l) + 1)%Z = Z.of_nat (total l + count (Val v))) by (cbn [count]; lia).
  destruct r as [|c r].
  { unfold peek, good. rewrite bool_decide_eq_true_2 by done. cbn [st_eof st_fail st_rest negb andb]. rewrite decide_False by done. rewrite Hput, E1. cbn [mbind option_bind].
    unfold failed. cbn [st_rest st_eof].
    apply (Hnext (Val v) [] true true (<[total l := v]> data)); [cbn in Hlr |- *; lia|by rewrite insert_length|done|done]. }
  unfold peek at 1, good. rewrite bool_decide_eq_false_2 by done. cbn [st_eof st_fail st_rest negb andb].
  destruct (decide (Some c = _)) as [Ec|Ec].
  2: { rewrite Hput, E1. cbn [mbind option_bind]. apply (Hnext (Val v) (c :: r) false false (<[total l := v]> data)); [done|by rewrite insert_length| |done].
    intros _. eapply Hval; [done|]. intros ->. done. }
  injection Ec as ->. cbn [st_rest st_eof st_fail tail]. unfold peek, good. cbn [st_eof st_fail st_rest negb andb].
  (* repeated values *)
  assert (Hmany : ∀ w t1 e1 f1, length t1 < length t → (f1 = false → entry t (Rep (to_int v) w) t1) →
    explains t0 data0 max (data' ← put_many data (Z.of_nat (total l)) (Z.to_nat (to_int v)) w;
      if decide (Z.of_nat (total l) + Z.max 0 (to_int v) >= Z.of_nat max)%Z
      then if f1 then Some None else Some (Some (data', (Z.of_nat (total l) + Z.max 0 (to_int v))%Z, Stream t1 e1 f1))
      else loop fuel data' (Z.of_nat (total l) + Z.max 0 (to_int v))%Z (Z.of_nat max) (Stream t1 e1 f1))).
  { intros w t1 e1 f1 Hlt Hx. destruct (decide (total l + Z.to_nat (to_int v) ≤ length data)) as [Hle|Hle].
    - destruct (put_many_ok (Z.to_nat (to_int v)) w data (total l) Hle) as (d1 & -> & L1 & H1). cbn [mbind option_bind].
      replace (Z.of_nat (total l) + Z.max 0 (to_int v))%Z with (Z.of_nat (total l + count (Rep (to_int v) w))) by (cbn [count]; lia).
      apply Hnext; [done|done|done|]. intros i Hi. by rewrite H1.
    - rewrite put_many_fail by lia. exists l, t, v, r. split; [done|]. split; [done|]. split; [done|]. lia. }
  destruct r as [|c r].
  { unfold get_number, good, failed. cbn [st_eof st_fail st_rest negb andb default]. apply (Hmany zero [] true true); [cbn in Hlr |- *; lia|done]. }
  destruct (is_space c) eqn:Es.
  - assert (Hx : entry t (Def (to_int v)) (c :: r)) by (eapply entry_def; [done|by apply is_space_spec]).
    assert (Hm : (0 ≤ to_int v)%Z). { pose proof (Hnn _ _ (record_snoc _ _ _ _ _ Hrec Hx)) as Hn. apply Forall_app in Hn as [_ Hn]. by inversion Hn. }
    replace (Z.of_nat (total l) + to_int v)%Z with (Z.of_nat (total l + count (@Def T (to_int v)))) by (cbn [count]; lia).
    apply (Hnext (Def (to_int v)) (c :: r) false false data); [cbn in Hlr |- *; lia|done|done|]. intros i Hi. clear. cbn beta iota. destruct (decide _); reflexivity.
  - unfold get_number, good. cbn [st_eof st_fail st_rest negb andb]. destruct (number (c :: r)) as [[w|] r3] eqn:En3; cbn [default].
    + apply (Hmany w r3 (bool_decide (r3 = [])) false); [apply number_some in En3; cbn in *; lia|]. intros _. eapply entry_rep; [done|by apply is_space_false|done].
    + apply (Hmany zero r3 (bool_decide (r3 = [])) true); [apply number_none in En3; cbn in *; lia|done].
Qed.
End loop.

(** Whatever the text: if the reader returns, the vector is filled as a record
    at the start of the text says, read up to its end or up to the requested
    number of values; it writes outside the vector only at a repeat count that
    leads beyond its end. *)
Theorem C45_read t data max : max ≤ length data → 0 < max → (∀ l t', record t l t' → Forall nonneg l) →
  explains t data max (read data (Z.of_nat max) (Stream t false false)).
Proof using number_empty number_some number_none.
  intros Hmax Hpos Hnn. unfold read_defaulted. rewrite decide_True by lia. cbn [st_rest].
  apply (loop_sound t data max Hmax Hnn _ [] t false data); [constructor|done|apply filled_nil|lia].
Qed.

Lemma loop_entry max t x t1 l0 data0 data fuel : entry t x t1 → filled l0 data0 data → nonneg x → total l0 < max → max ≤ length data0 →
  (total l0 + count x ≤ length data0 ∨ ∃ n, x = Def n) →
  ∃ data', filled (l0 ++ [x]) data0 data' ∧
    loop (S fuel) data (Z.of_nat (total l0)) (Z.of_nat max) (Stream t false false) =
    if decide (max ≤ total (l0 ++ [x])) then Some (Some (data', Z.of_nat (total (l0 ++ [x])), Stream t1 (bool_decide (t1 = [])) false))
    else loop fuel data' (Z.of_nat (total (l0 ++ [x]))) (Z.of_nat max) (Stream t1 (bool_decide (t1 = [])) false).
Proof using.
  clear. intros Hx Hfill Hnn Htot Hmax Hfit. pose proof Hfill as [Ld Hd].
  assert (Et : total (l0 ++ [x]) = total l0 + count x) by (rewrite total_app; unfold total; cbn; lia).
  cbn [defaulted_loop st_fail]. unfold get_number at 1. cbn [good st_eof st_fail negb andb st_rest].
  assert (Hfin : ∀ data' (nv : Z), nv = Z.of_nat (total l0 + count x) → 
    (if decide (nv >= Z.of_nat max)%Z then Some (Some (data', nv, Stream t1 (bool_decide (t1 = [])) false)) else loop fuel data' nv (Z.of_nat max) (Stream t1 (bool_decide (t1 = [])) false)) =
    if decide (max ≤ total (l0 ++ [x])) then Some (Some (data', Z.of_nat (total (l0 ++ [x])), Stream t1 (bool_decide (t1 = [])) false))
    else loop fuel data' (Z.of_nat (total (l0 ++ [x]))) (Z.of_nat max) (Stream t1 (bool_decide (t1 = [])) false)).
  { intros data' nv ->. rewrite Et. destruct (decide (max ≤ _)); [rewrite decide_True by lia|rewrite decide_False by lia]; done. }
  destruct Hx as [t v c t1 En Hc|t v c t1 w t2 En Hc En2|t v c t1 En Hc]; rewrite En.
  - exists (<[total l0 := v]> data). split.
    { eapply filled_step; [exact Hfill|by rewrite insert_length|]. intros i Hi. clear Hfin Hfit Hd. cbn [count]. destruct (decide _) as [Hde|Hde]; [replace i with (total l0) by lia; apply list_lookup_insert; lia|apply list_lookup_insert_ne; lia]. }
    unfold peek, good. rewrite bool_decide_eq_false_2 by done. cbn [st_eof st_fail st_rest negb andb]. rewrite decide_False by (intros [= ->]; done).
    unfold put. rewrite decide_False by lia. rewrite Nat2Z.id, upd_Some by lia. cbn [mbind option_bind].
    rewrite bool_decide_eq_false_2 in Hfin by done. apply Hfin. cbn [count]. lia.
  - unfold peek, good. rewrite bool_decide_eq_false_2 by done. cbn [st_eof st_fail st_rest negb andb tail]. rewrite decide_True by done.
    cbn [st_eof st_fail st_rest negb andb]. apply is_space_false in Hc as ->.
    unfold get_number, good. cbn [st_eof st_fail st_rest negb andb]. rewrite En2. cbn [default].
    cbn [nonneg] in Hnn. cbn [count] in Hfin, Hfit. destruct (put_many_ok (Z.to_nat (to_int v)) w data (total l0)) as (d1 & Ep & L1 & H1); [destruct Hfit as [?|[? ?]]; [lia|done]|].
    exists d1. split. { eapply filled_step; [exact Hfill|done|]. intros i Hi. apply H1. }
    change (id w) with w. rewrite Ep. cbn [mbind option_bind st_fail]. apply Hfin. lia.
  - unfold peek, good. rewrite bool_decide_eq_false_2 by done. cbn [st_eof st_fail st_rest negb andb tail]. rewrite decide_True by done.
    cbn [st_eof st_fail st_rest negb andb]. apply is_space_spec in Hc as ->. cbn [nonneg] in Hnn.
    exists data. split. { eapply filled_step; [exact Hfill|done|]. intros i Hi. clear. cbn beta iota. destruct (decide _); reflexivity. }
    rewrite bool_decide_eq_false_2 in Hfin by done. cbn [st_fail]. apply Hfin. cbn [count]. lia.
Qed.
Lemma dash_word_space : ¬ space "-"%char.
Proof using. clear. apply is_space_false. done. Qed.
Lemma slash_space : ¬ space "/"%char.
Proof using. clear. apply is_space_false. done. Qed.
Lemma take1_app (l r : list ascii) : Forall space (take 1 l) → Forall space (take 1 (l ++ newline :: r)).
Proof using. clear. destruct l; [|done]. intros _. constructor; [apply newline_space|constructor]. Qed.
Lemma loop_comment (max : nat) t t1 (nv : Z) data fuel : comment t t1 → (nv < Z.of_nat max)%Z →
  loop (S fuel) data nv (Z.of_nat max) (Stream t false false) = loop fuel data nv (Z.of_nat max) (Stream t1 false false).
Proof using.
  clear. intros Hc Hnv. destruct Hc as [t ws w l t1 En Hws Hw Hl Hs].
  cbn [defaulted_loop st_fail]. unfold get_number at 1. cbn [good st_eof st_fail negb andb st_rest]. rewrite En. cbn [st_rest st_eof].
  unfold get_word, good. rewrite bool_decide_eq_false_2 by (by destruct ws). cbn [st_eof st_fail st_rest negb andb].
  rewrite <- app_comm_cons. rewrite skip_space_app by (done || apply dash_word_space). rewrite app_comm_cons.
  rewrite split_word_app; [|constructor; [apply dash_word_space|done]|by apply take1_app].
  rewrite decide_False by done. rewrite decide_True by done. rewrite decide_False by lia.
  unfold ignore_line, good. rewrite bool_decide_eq_false_2 by (by destruct l). cbn [st_eof st_fail st_rest negb andb]. by rewrite behind_line_app.
Qed.
Lemma record_empty t l t' : record t l t' → t = [] → t' = [] ∧ l = [].
Proof using number_empty.
  clear number_some number_none. intros H. destruct H as [|t t1 l t' Hc _|t x t1 l t' He _]; intros ->; [done|..]; exfalso.
  - inversion Hc as [? ws w l' ? En]. rewrite number_empty in En. injection En as En. by destruct ws.
  - inversion He as [? ? ? ? En|? ? ? ? ? ? En|? ? ? ? En]; rewrite number_empty in En; done.
Qed.
Lemma entry_shorter t x t1 : entry t x t1 → length t1 < length t.
Proof using number_some. clear number_empty number_none. intros []; repeat match goal with H : number _ = (Some _, _) |- _ => apply number_some in H end; cbn in *; lia. Qed.
Lemma comment_shorter t t1 : comment t t1 → length t1 < length t.
Proof using number_none. clear number_empty number_some. intros [? ? ? ? ? En]. apply number_none in En. rewrite !app_length in En. cbn [length] in En. lia. Qed.
Lemma loop_record max t l t' : record t l t' → ∀ l0 data0 data fuel, filled l0 data0 data → total (l0 ++ l) < max → max ≤ length data0 → Forall nonneg l → length t + 1 < fuel → t' ≠ [] →
  ∃ fuel' data', loop fuel data (Z.of_nat (total l0)) (Z.of_nat max) (Stream t false false) = loop fuel' data' (Z.of_nat (total (l0 ++ l))) (Z.of_nat max) (Stream t' false false) ∧
    length t' + 1 < fuel' ∧ filled (l0 ++ l) data0 data'.
Proof using number_empty number_some number_none.
  intros H. induction H as [t|t t1 l t' Hc Hr IH|t x t1 l t' He Hr IH]; intros l0 data0 data fuel Hfill Htot Hmax Hnn Hf Ht'.
  - rewrite app_nil_r. by exists fuel, data.
  - destruct fuel as [|fuel]; [lia|]. rewrite total_app in Htot. rewrite (loop_comment max t t1 _ data fuel Hc) by lia.
    apply comment_shorter in Hc. rewrite <- total_app in Htot. apply IH; try done. lia.
  - destruct fuel as [|fuel]; [lia|]. rewrite total_app in Htot. unfold total in Htot. cbn [sum_list_with] in Htot. fold (total l0) in Htot. fold (total l) in Htot.
    apply Forall_cons in Hnn as [Hx Hnn].
    destruct (loop_entry max t x t1 l0 data0 data fuel He Hfill Hx) as (data' & Hfill' & ->); [lia|lia|left; lia|].
    assert (Et : total (l0 ++ [x]) = total l0 + count x) by (rewrite total_app; unfold total; cbn; lia).
    rewrite decide_False by lia. apply entry_shorter in He.
    rewrite bool_decide_eq_false_2. 2: { intros ->. by destruct (record_empty _ _ _ Hr eq_refl). }
    destruct (IH (l0 ++ [x]) data0 data' fuel) as (fuel' & data'' & E & Hf' & Hd'); try done.
    + rewrite <- app_assoc. cbn [app]. rewrite total_app. unfold total at 2. cbn [sum_list_with]. fold (total l). lia.
    + lia.
    + rewrite <- app_assoc in E, Hd'. cbn [app] in E, Hd'. by exists fuel', data''.
Qed.

(** Conversely, a record that ends with a slash before the requested number of
    values, *)
Theorem C45_slash t l t1 t2 data max : record t l t1 → ended t1 t2 → Forall nonneg l → total l < max → max ≤ length data →
  ∃ data' e, read data (Z.of_nat max) (Stream t false false) = Some (Some (data', Z.of_nat (total l), Stream t2 e false)) ∧ filled l data data'.
Proof using number_empty number_some number_none.
  intros Hr He Hnn Htot Hmax. unfold read_defaulted. rewrite decide_True by lia. cbn [st_rest].
  assert (Ht1 : t1 ≠ []). { intros ->. inversion He as [? ws ? ? En|? ws ? En]; rewrite number_empty in En; injection En as En; by destruct ws. }
  destruct (loop_record max t l t1 Hr [] data data (length t + 2) (filled_nil _)) as (fuel & data' & E & Hf & Hd); try done; [lia|].
  change (Z.of_nat (total [])) with 0%Z in E. rewrite E. cbn [app] in *. exists data'. clear E Hr. destruct fuel as [|fuel]; [lia|].
  cbn [defaulted_loop st_fail]. unfold get_number at 1. cbn [good st_eof st_fail negb andb st_rest].
  destruct He as [t1 ws lr t2 En Hws Hl Hs|t1 ws lr En Hws Hl Hne Hs]; rewrite En; cbn [st_rest st_eof]; unfold get_word, good; rewrite bool_decide_eq_false_2 by (by destruct ws); cbn [st_eof st_fail st_rest negb andb];
    rewrite skip_space_app by (done || apply slash_space).
  - change ("/"%char :: lr ++ newline :: t2) with (["/"%char] ++ (lr ++ newline :: t2)).
    rewrite split_word_app; [|constructor; [apply slash_space|constructor]|by apply take1_app]. cbn [app].
    rewrite decide_True by done. unfold ignore_line, good. rewrite bool_decide_eq_false_2 by (by destruct lr). cbn [st_eof st_fail st_rest negb andb].
    rewrite behind_line_app by done. cbn [st_fail]. by exists false.
  - change ("/"%char :: lr) with (["/"%char] ++ lr).
    rewrite split_word_app; [|constructor; [apply slash_space|constructor]|done]. cbn [app].
    rewrite decide_True by done. unfold ignore_line, good. rewrite bool_decide_eq_false_2 by done. cbn [st_eof st_fail st_rest negb andb].
    apply behind_line_None in Hl as ->. cbn [st_fail]. by exists true.
Qed.
(** and one that reaches the requested number are read. *)
Theorem C45_full t l t1 x t2 data max : record t l t1 → entry t1 x t2 → Forall nonneg (l ++ [x]) → total l < max ≤ total (l ++ [x]) → max ≤ length data →
  (total (l ++ [x]) ≤ length data ∨ ∃ n, x = Def n) →
  ∃ data' e, read data (Z.of_nat max) (Stream t false false) = Some (Some (data', Z.of_nat (total (l ++ [x])), Stream t2 e false)) ∧ filled (l ++ [x]) data data'.
Proof using number_empty number_some number_none.
  intros Hr He Hnn Htot Hmax Hfit. apply Forall_app in Hnn as [Hnn Hx]. apply Forall_cons in Hx as [Hx _].
  unfold read_defaulted. rewrite decide_True by lia. cbn [st_rest].
  assert (Ht1 : t1 ≠ []). { intros ->. inversion He as [? ? ? ? En|? ? ? ? ? ? En|? ? ? ? En]; rewrite number_empty in En; done. }
  destruct (loop_record max t l t1 Hr [] data data (length t + 2) (filled_nil _)) as (fuel & data' & E & Hf & Hd); try done; [cbn [app]; lia|lia|].
  change (Z.of_nat (total [])) with 0%Z in E. rewrite E. cbn [app] in *. clear E. destruct fuel as [|fuel]; [lia|].
  assert (Et : total (l ++ [x]) = total l + count x) by (rewrite total_app; unfold total; cbn; lia).
  destruct (loop_entry max t1 x t2 l data data' fuel He Hd Hx) as (d & Hfd & ->); [lia|done|by rewrite <- Et|].
  rewrite decide_True by lia. by exists d, (bool_decide (t2 = [])).
Qed.
End props.
Print Assumptions C45_read.
Print Assumptions C45_slash.
Print Assumptions C45_full.

(** Whole numbers as values. *)
Definition is_digit (c : ascii) : bool := let n := nat_of_ascii c in (48 <=? n) && (n <=? 57).
Fixpoint digits (a : Z) (t : list ascii) : Z * list ascii :=
  match t with c :: t' => if is_digit c then digits (10 * a + (Z.of_nat (nat_of_ascii c) - 48)) t' else (a, t) | [] => (a, []) end.
Definition integer (t : list ascii) : option Z * list ascii :=
  match skip_space t with
  | c :: t' =>
    if is_digit c then let '(v, r) := digits 0 (c :: t') in (Some v, r)
    else if Ascii.eqb c "-" then
      match t' with d :: _ => if is_digit d then let '(v, r) := digits 0 t' in (Some (- v)%Z, r) else (None, t') | [] => (None, []) end
    else (None, c :: t')
  | [] => (None, [])
  end.
Lemma skip_space_length t : length (skip_space t) ≤ length t.
Proof. induction t as [|c t IH]; cbn [skip_space]; [done|]. destruct (is_space c); cbn [length]; lia. Qed.
Lemma digits_length t : ∀ a, length (digits a t).2 ≤ length t.
Proof. induction t as [|c t IH]; intros a; cbn [digits]; [done|]. destruct (is_digit c); [|done]. specialize (IH (10 * a + (Z.of_nat (nat_of_ascii c) - 48))%Z). cbn [length]. lia. Qed.
Lemma digits_length_S c t a : is_digit c = true → length (digits a (c :: t)).2 ≤ length t.
Proof. intros Hc. cbn [digits]. rewrite Hc. apply digits_length. Qed.
Lemma integer_some t v r : integer t = (Some v, r) → length r < length t.
Proof.
  unfold integer. pose proof (skip_space_length t). destruct (skip_space t) as [|c t']; [done|]. cbn [length] in *.
  destruct (is_digit c) eqn:Ec.
  - pose proof (digits_length_S c t' 0 Ec). destruct (digits 0 (c :: t')) as [x y]. intros [= _ <-]. cbn in *. lia.
  - destruct (Ascii.eqb c "-"); [|done]. destruct t' as [|d t']; [done|]. destruct (is_digit d) eqn:Ed; [|done].
    pose proof (digits_length_S d t' 0 Ed). destruct (digits 0 (d :: t')) as [x y]. intros [= _ <-]. cbn in *. lia.
Qed.
Lemma integer_none t r : integer t = (None, r) → length r ≤ length t.
Proof.
  unfold integer. pose proof (skip_space_length t). destruct (skip_space t) as [|c t']; [intros [= <-]; cbn; lia|]. cbn [length] in *.
  destruct (is_digit c); [by destruct (digits _ _)|]. destruct (Ascii.eqb c "-"); [|intros [= <-]; cbn; lia].
  destruct t' as [|d t']; [intros [= <-]; cbn; lia|]. destruct (is_digit d); [by destruct (digits _ _)|]. intros [= <-]. cbn in *. lia.
Qed.
Notation rd := (read_defaulted integer id 0%Z).
Fixpoint chars (s : String.string) : list ascii := match s with String.EmptyString => [] | String.String c s => c :: chars s end.
Definition text (s : String.string) : stream := Stream (chars s) false false.
Import String.
(** [7 2* 3*5 -- text, newline, 4 /, newline, rest] into ten values of 1. *)
Definition text1 : String.string := "7 2* 3*5 -- text" ++ String "010" ("4 /" ++ String "010" "rest").
Example C45_example : rd (replicate 10 1%Z) 10 (text text1) = Some (Some ([7; 1; 1; 5; 5; 5; 4; 1; 1; 1]%Z, 7%Z, text "rest")).
Proof. vm_compute. reflexivity. Qed.
Example C45_example_record : ∃ t1, record integer id (chars text1) [Val 7%Z; Def 2; Rep 3 5%Z; Val 4%Z] t1 ∧ ended integer t1 (chars "rest").
Proof.
  exists (chars (" /" ++ String "010" "rest")). split.
  - eapply record_entry. { eapply (entry_val _ _ _ 7%Z); [vm_compute; reflexivity|done]. }
    eapply record_entry. { eapply (entry_def integer id _ 2%Z); [vm_compute; reflexivity|by left]. }
    eapply record_entry. { eapply (entry_rep integer id _ 3%Z); [vm_compute; reflexivity|by apply is_space_false|vm_compute; reflexivity]. }
    eapply record_comment. { eapply (comment_line _ _ [] [] (chars " text")); [vm_compute; reflexivity|constructor|constructor| |].
      - cbn. rewrite !elem_of_cons, elem_of_nil. naive_solver.
      - constructor; [by left|constructor]. }
    eapply record_entry. { eapply (entry_val _ _ _ 4%Z); [vm_compute; reflexivity|done]. }
    constructor.
  - eapply (ended_line _ _ [] []); [vm_compute; reflexivity|constructor|apply not_elem_of_nil|constructor].
Qed.
(** "Never writes past the requested number" is false: a repeat count is not
    compared with what is left, neither in the vector *)
Theorem C45_repeat_refuted : ∃ t, rd [0; 0]%Z 2 t = None.
Proof. exists (text "3*5 /"). vm_compute. reflexivity. Qed.
(** nor below its end; *)
Theorem C45_requested_refuted : ∃ t s, rd [0; 0; 0]%Z 2 t = Some (Some ([5; 5; 5]%Z, 3%Z, s)).
Proof. exists (text "3*5 /"). eexists. vm_compute. reflexivity. Qed.
(** and a negative count of defaults leads before the start. *)
Theorem C45_negative_refuted : ∃ t, rd [0; 0]%Z 2 t = None.
Proof. exists (text "-1* 5 /"). vm_compute. reflexivity. Qed.
Print Assumptions C45_repeat_refuted.
Print Assumptions C45_requested_refuted.
Print Assumptions C45_negative_refuted.
