(** Records of numbers in a deck. *)
From Coq Require Import Ascii.
From Verif Require Import Base.
From Verif Require DeckModel.

Definition space (c : ascii) : Prop := c = " "%char ∨ ∃ n, 9 ≤ n ≤ 13 ∧ c = ascii_of_nat n.
Definition newline : ascii := "010".

Section spec.
Context {T : Type}.
Variables (number : list ascii → option T * list ascii) (to_int : T → Z).

(** One entry: a value, [n*v] or [n*]. *)
Inductive item := Val (v : T) | Rep (n : Z) (v : T) | Def (n : Z).
Definition count (x : item) : nat := match x with Val _ => 1 | Rep n _ | Def n => Z.to_nat n end.
Definition nonneg (x : item) : Prop := match x with Val _ => True | Rep n _ | Def n => (0 ≤ n)%Z end.
(** What an entry says about the next values. *)
Definition says (x : item) : list (option T) := match x with Val v => [Some v] | Rep n v => replicate (Z.to_nat n) (Some v) | Def n => replicate (Z.to_nat n) None end.
Definition total (l : list item) : nat := sum_list_with count l.
(** [data'] is [data] with the stated values. *)
Definition filled (l : list item) (data data' : list T) : Prop :=
  length data' = length data ∧ ∀ i, i < length data → data' !! i = match concat (map says l) !! i with Some (Some v) => Some v | _ => data !! i end.

(** The text [t] starts with an entry, [t'] is behind it. *)
Inductive entry : list ascii → item → list ascii → Prop :=
| entry_val t v c t1 : number t = (Some v, c :: t1) → c ≠ "*"%char → entry t (Val v) (c :: t1)
| entry_rep t v c t1 w t2 : number t = (Some v, "*"%char :: c :: t1) → ¬ space c → number (c :: t1) = (Some w, t2) → entry t (Rep (to_int v) w) t2
| entry_def t v c t1 : number t = (Some v, "*"%char :: c :: t1) → space c → entry t (Def (to_int v)) (c :: t1).
(** A comment: no number, then a word that starts with a dash, then the rest of
    the line. *)
Inductive comment : list ascii → list ascii → Prop :=
| comment_line t ws w l t' : number t = (None, ws ++ ("-"%char :: w) ++ l ++ newline :: t') → Forall space ws → Forall (λ c, ¬ space c) w →
    newline ∉ l → Forall space (take 1 l) → comment t t'.
(** The end: a slash alone, then the rest of the line or of the file. *)
Inductive ended : list ascii → list ascii → Prop :=
| ended_line t ws l t' : number t = (None, ws ++ "/"%char :: l ++ newline :: t') → Forall space ws → newline ∉ l → Forall space (take 1 l) → ended t t'
| ended_file t ws l : number t = (None, ws ++ "/"%char :: l) → Forall space ws → newline ∉ l → l ≠ [] → Forall space (take 1 l) → ended t [].
(** Entries and comments, one after the other. *)
Inductive record : list ascii → list item → list ascii → Prop :=
| record_nil t : record t [] t
| record_comment t t1 l t' : comment t t1 → record t1 l t' → record t l t'
| record_entry t x t1 l t' : entry t x t1 → record t1 l t' → record t (x :: l) t'.

(** Records of readVectorData: no defaults, the value of a repeat count may
    follow at a distance, comments and the end are single characters. *)
Inductive entryv : list ascii → list T → list ascii → Prop :=
| entryv_val t v c t1 : number t = (Some v, c :: t1) → c ≠ "*"%char → entryv t [v] (c :: t1)
| entryv_rep t v t1 w t2 : number t = (Some v, "*"%char :: t1) → (0 ≤ to_int v)%Z → number t1 = (Some w, t2) → entryv t (replicate (Z.to_nat (to_int v)) w) t2.
Inductive commentv : list ascii → list ascii → Prop :=
| commentv_line t ws l t' : number t = (None, ws ++ "-"%char :: l ++ newline :: t') → Forall space ws → newline ∉ l → commentv t t'.
Inductive endedv : list ascii → list ascii → Prop :=
| endedv_line t ws l t' : number t = (None, ws ++ "/"%char :: l ++ newline :: t') → Forall space ws → newline ∉ l → endedv t t'
| endedv_file t ws l : number t = (None, ws ++ "/"%char :: l) → Forall space ws → newline ∉ l → endedv t [].
Inductive recordv : list ascii → list T → list ascii → Prop :=
| recordv_nil t : recordv t [] t
| recordv_comment t t1 l t' : commentv t t1 → recordv t1 l t' → recordv t l t'
| recordv_entry t x t1 l t' : entryv t x t1 → recordv t1 l t' → recordv t (x ++ l) t'.
End spec.
