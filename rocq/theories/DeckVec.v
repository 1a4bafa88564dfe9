(** C45: reading vectors of numbers. *)
From Coq Require Import Ascii.
From Verif Require Import Base DeckModel DeckSpec DeckProps.
Unset Default Proof Using.

Section props.
Context {T : Type}.
Variables (number : list ascii → option T * list ascii) (to_int : T → Z) (zero : T).
Notation entryv := (entryv number to_int).
Notation recordv := (recordv number to_int).
Notation commentv := (commentv number).
Notation endedv := (endedv number).
Notation loop := (vector_loop number to_int zero).
Notation readv := (read_vector number to_int zero).
Hypothesis number_empty : number [] = (None, []).
Hypothesis number_some : ∀ t v r, number t = (Some v, r) → length r < length t.
Hypothesis number_none : ∀ t r, number t = (None, r) → length r ≤ length t.

Lemma recordv_app t l t1 l' t2 : recordv t l t1 → recordv t1 l' t2 → recordv t (l ++ l') t2.
Proof using. clear. intros H H'. induction H; cbn [app]; [done|eapply recordv_comment; eauto|rewrite <- app_assoc; eapply recordv_entry; eauto]. Qed.
Lemma recordv_snoc t l t1 x t2 : recordv t l t1 → entryv t1 x t2 → recordv t (l ++ x) t2.
Proof using. clear. intros H H'. eapply recordv_app; [exact H|]. rewrite <- (app_nil_r x). eapply recordv_entry; [exact H'|constructor]. Qed.
Lemma recordv_snoc_comment t l t1 t2 : recordv t l t1 → commentv t1 t2 → recordv t l t2.
Proof using. clear. intros H H'. rewrite <- (app_nil_r l). eapply recordv_app; [exact H|]. eapply recordv_comment; [exact H'|constructor]. Qed.
Lemma vloop_bad fuel data s : 0 < fuel → good s = false → loop fuel data s = Some None.
Proof using.
  clear. intros Hf Hs. destruct fuel; [lia|]. cbn [vector_loop]. destruct s as [r e f]. unfold good in Hs. cbn [st_eof st_fail] in *.
  destruct f; [done|]. destruct e; [|done]. done.
Qed.

Lemma vloop_sound t0 : ∀ fuel l t e, recordv t0 l t → length t + 1 < fuel →
  match loop fuel l (Stream t e false) with
  | Some (Some (data, s)) => ∃ t1, recordv t0 data t1 ∧ endedv t1 (st_rest s)
  | Some None => True
  | None => False
  end.
Proof using number_some number_none.
  clear number_empty.
  induction fuel as [|fuel IH]; intros l t e Hrec Hf; [lia|].
  destruct e; [rewrite vloop_bad; [done|lia|done]|]. cbn [vector_loop st_fail].
  assert (Hbad : ∀ s d, good s = false → match loop fuel d s with Some (Some (data, s)) => ∃ t1, recordv t0 data t1 ∧ endedv t1 (st_rest s) | Some None => True | None => False end).
  { intros s d Hs. rewrite vloop_bad; [done|lia|done]. }
  unfold get_number at 1. cbn [good st_eof st_fail negb andb st_rest]. destruct (number t) as [[v|] r] eqn:En.
  - pose proof (number_some _ _ _ En) as Hlr. destruct r as [|c r].
    { unfold peek, good. rewrite bool_decide_eq_true_2 by done. cbn [st_eof st_fail st_rest negb andb]. rewrite decide_False by done. by apply Hbad. }
    unfold peek, good. rewrite bool_decide_eq_false_2 by done. cbn [st_eof st_fail st_rest negb andb].
    destruct (decide (Some c = _)) as [Ec|Ec].
    2: { apply IH; [|lia]. eapply recordv_snoc; [exact Hrec|]. constructor; [done|]. intros ->. done. }
    injection Ec as ->. cbn [tail]. unfold get_number, good. cbn [st_eof st_fail st_rest negb andb].
    destruct (number r) as [[w|] r3] eqn:En3.
    + destruct (decide (to_int v < 0)%Z); [done|]. cbn [default]. apply IH.
      * eapply recordv_snoc; [exact Hrec|]. eapply entryv_rep; [done|lia|done].
      * apply number_some in En3. cbn [length] in Hlr. lia.
    + destruct (decide (to_int v < 0)%Z); [done|]. apply Hbad. unfold good. cbn. by destruct (bool_decide _).
  - pose proof (number_none _ _ En) as Hlr. cbn [st_rest st_eof]. unfold get_char, good. cbn [st_eof st_fail st_rest].
    case_bool_decide as Hr; cbn [negb andb]; [done|]. destruct (skip_space_spec r) as (ws & Er & Hws & _). destruct (skip_space r) as [|c q]; [done|].
    destruct (decide (c = "/"%char)) as [->|_].
    + unfold ignore_line, good. cbn [st_eof st_fail st_rest negb andb]. destruct (behind_line q) as [t'|] eqn:Eb; cbn [st_fail st_rest].
      * apply behind_line_Some in Eb as (l' & -> & Hl'). exists t. split; [done|]. eapply endedv_line; [|done|done]. by rewrite En, Er.
      * apply behind_line_None in Eb. exists t. split; [done|]. eapply endedv_file; [|done|done]. by rewrite En, Er.
    + destruct (decide (c = "-"%char)) as [->|_]; [|done].
      unfold ignore_line, good. cbn [st_eof st_fail st_rest negb andb]. destruct (behind_line q) as [t'|] eqn:Eb; [|by apply Hbad].
      apply behind_line_Some in Eb as (l' & -> & Hl'). apply IH.
      * eapply recordv_snoc_comment; [exact Hrec|]. eapply commentv_line; [|done|done]. by rewrite En, Er.
      * rewrite Er, app_length in Hlr. cbn [length] in Hlr. rewrite app_length in Hlr. cbn [length] in Hlr. lia.
Qed.
Lemma recordv_empty t l t' : recordv t l t' → t = [] → t' = [].
Proof using number_empty.
  clear number_some number_none. intros H. destruct H as [|t t1 l t' Hc _|t x t1 l t' He _]; intros ->; [done|..]; exfalso.
  - inversion Hc as [? ws w l' En]. rewrite number_empty in En. injection En as En. by destruct ws.
  - inversion He as [? ? ? ? En|? ? ? ? ? En]; rewrite number_empty in En; done.
Qed.
Lemma vloop_complete t l t' : recordv t l t' → ∀ t2 data fuel, endedv t' t2 → length t + 1 < fuel →
  ∃ e, loop fuel data (Stream t false false) = Some (Some (data ++ l, Stream t2 e false)).
Proof using number_empty number_some number_none.
  intros H. induction H as [t|t t1 l t' Hc Hr IH|t x t1 l t' He Hr IH]; intros t2 data fuel Hend Hf; (destruct fuel as [|fuel]; [lia|]); cbn [vector_loop st_fail];
    unfold get_number at 1; cbn [good st_eof st_fail negb andb st_rest].
  - clear number_some number_none. rewrite app_nil_r.
    destruct Hend as [t ws lr t2 En Hws Hl|t ws lr En Hws Hl]; rewrite En; cbn [st_rest st_eof]; unfold get_char, good; rewrite bool_decide_eq_false_2 by (by destruct ws); cbn [st_eof st_fail st_rest negb andb];
      rewrite skip_space_app by (done || apply slash_space); rewrite decide_True by done; unfold ignore_line, good; cbn [st_eof st_fail st_rest negb andb].
    + rewrite behind_line_app by done. by exists false.
    + apply behind_line_None in Hl as ->. by exists true.
  - destruct Hc as [t ws lr t1 En Hws Hl]. pose proof (number_none _ _ En) as Hlr. rewrite En. cbn [st_rest st_eof]. unfold get_char, good. rewrite bool_decide_eq_false_2 by (by destruct ws). cbn [st_eof st_fail st_rest negb andb].
    rewrite skip_space_app by (done || apply dash_word_space). rewrite decide_False by done. rewrite decide_True by done.
    unfold ignore_line, good; cbn [st_eof st_fail st_rest negb andb]. rewrite behind_line_app by done. apply IH; [done|].
    rewrite app_length in Hlr. cbn [length] in Hlr. rewrite app_length in Hlr. cbn [length] in Hlr. lia.
  - assert (Ht1 : t1 ≠ []).
    { intros ->. apply recordv_empty in Hr; [|done]. subst t'. inversion Hend as [? ws ? ? En|? ws ? En]; rewrite number_empty in En; injection En as En; by destruct ws. }
    rewrite app_assoc. destruct He as [t v c t1 En Hc|t v t1 w t2' En Hv En2]; rewrite En; pose proof (number_some _ _ _ En) as Hlr; unfold peek, good; rewrite bool_decide_eq_false_2 by done; cbn [st_eof st_fail st_rest negb andb].
    + rewrite decide_False by (intros [= ->]; done). apply IH; [done|lia].
    + rewrite decide_True by done. cbn [tail]. unfold get_number, good. cbn [st_eof st_fail st_rest negb andb]. rewrite En2. rewrite decide_False by lia. cbn [default].
      rewrite bool_decide_eq_false_2 by done. apply IH; [done|]. apply number_some in En2. cbn [length] in Hlr. lia.
Qed.

(** Whatever the text, readVectorData ends; what it returns is the list of
    values of a record that starts the text, *)
Theorem C45_vector t :
  match readv (Stream t false false) with
  | Some (Some (data, s)) => ∃ t1, recordv t data t1 ∧ endedv t1 (st_rest s)
  | Some None => True
  | None => False
  end.
Proof using number_some number_none. clear number_empty. apply vloop_sound; [constructor|]. cbn [st_rest]. lia. Qed.
(** and every record is read. *)
Theorem C45_vector_all t l t1 t2 : recordv t l t1 → endedv t1 t2 → ∃ e, readv (Stream t false false) = Some (Some (l, Stream t2 e false)).
Proof using number_empty number_some number_none. intros Hr He. apply (vloop_complete t l t1 Hr t2 [] _ He). cbn [st_rest]. lia. Qed.
End props.
Print Assumptions C45_vector.
Print Assumptions C45_vector_all.

Import String.
Example C45_vector_example : read_vector integer id 0%Z (text ("7 3* 5 -- text" ++ String "010" ("4 /" ++ String "010" "rest"))) = Some (Some ([7; 5; 5; 5; 4]%Z, text "rest")).
Proof. vm_compute. reflexivity. Qed.
Example C45_vector_example_record : ∃ t1, recordv integer id (chars ("3* 5 /" ++ String "010" "rest")) [5; 5; 5]%Z t1 ∧ endedv integer t1 (chars "rest").
Proof.
  exists (chars (" /" ++ String "010" "rest")). split.
  - eapply (recordv_entry integer id _ [5; 5; 5]%Z). { apply (entryv_rep integer id _ 3%Z (chars (" 5 /" ++ String "010" "rest")) 5%Z); done. } constructor.
  - eapply (endedv_line _ _ [] []); [vm_compute; reflexivity|constructor|apply not_elem_of_nil].
Qed.
