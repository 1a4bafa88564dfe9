(** Model of readVectorData and readDefaultedVectorData,
    opm/core/io/eclipse/EclipseGridParserHelpers.hpp:53-183. The stream is the
    rest of the text with the flags eofbit and failbit; badbit, locales and the
    limit INT_MAX of ignore are left out. [number] is the conversion of the
    extraction operator: the value, or [None] for a failure, and the text behind;
    eofbit is set if it is empty. Results: [None] is undefined behaviour (an
    access outside the vector), [Some None] an exception. *)
From Coq Require Export Ascii.
From Verif Require Import Base.

Global Instance ascii_eq_dec : EqDecision ascii := Ascii.ascii_dec.

(** std::istream. *)
Record stream := Stream { st_rest : list ascii; st_eof : bool; st_fail : bool }.
Definition good (s : stream) : bool := negb (st_eof s) && negb (st_fail s).
Definition failed (s : stream) : stream := Stream (st_rest s) (st_eof s) true.
(** ctype_base::space in the classic locale. *)
Definition is_space (c : ascii) : bool := let n := nat_of_ascii c in (n =? 32) || ((9 <=? n) && (n <=? 13)).
Fixpoint skip_space (t : list ascii) : list ascii := match t with c :: t' => if is_space c then skip_space t' else t | [] => [] end.
Fixpoint split_word (t : list ascii) : list ascii * list ascii :=
  match t with c :: t' => if is_space c then ([], t) else let '(w, r) := split_word t' in (c :: w, r) | [] => ([], []) end.
Fixpoint behind_line (t : list ascii) : option (list ascii) := match t with c :: t' => if Ascii.eqb c "010" then Some t' else behind_line t' | [] => None end.

(** istream::peek. *)
Definition peek (s : stream) : option ascii * stream :=
  if good s then match st_rest s with [] => (None, Stream [] true false) | c :: _ => (Some c, s) end else (None, failed s).
(** operator>>(istream, string): the word is empty on failure. *)
Definition get_word (s : stream) : list ascii * stream :=
  if good s then
    let t := skip_space (st_rest s) in
    match t with
    | [] => ([], Stream [] true true)
    | _ => let '(w, r) := split_word t in (w, Stream r (bool_decide (r = [])) false)
    end
  else ([], failed s).
(** operator>>(istream, char), skipping white space. *)
Definition get_char (s : stream) : option ascii * stream :=
  if good s then match skip_space (st_rest s) with [] => (None, Stream [] true true) | c :: r => (Some c, Stream r false false) end
  else (None, failed s).
(** ignoreLine, EclipseGridParserHelpers.hpp:53-57. *)
Definition ignore_line (s : stream) : stream :=
  if good s then match behind_line (st_rest s) with Some r => Stream r false false | None => Stream [] true false end
  else failed s.

Section read.
Context {T : Type}.
Variables (number : list ascii → option T * list ascii) (to_int : T → Z) (zero : T).

(** operator>>(istream, T): a failed conversion stores [zero]. *)
Definition get_number (s : stream) : option T * stream :=
  if good s then let '(v, r) := number (st_rest s) in (v, Stream r (bool_decide (r = [])) (match v with Some _ => false | None => true end))
  else (None, failed s).

(** [data[i] = v] with an int [i]. *)
Definition put (data : list T) (i : Z) (v : T) : option (list T) := if decide (i < 0)%Z then None else upd data (Z.to_nat i) v.
(** [for (int i=0; i<multiplier; ++i, ++num_values) data[num_values] = candidate]. *)
Fixpoint put_many (data : list T) (i : Z) (n : nat) (v : T) : option (list T) :=
  match n with 0 => Some data | S n => data ← put data i v; put_many data (i + 1) n v end.

(** readDefaultedVectorData, EclipseGridParserHelpers.hpp:137-183: the loop; the
    vector, the number of values and the stream. *)
Fixpoint defaulted_loop (fuel : nat) (data : list T) (nv max : Z) (s : stream) : option (option (list T * Z * stream)) :=
  match fuel with
  | 0 => None
  | S fuel =>
    if st_fail s then Some None else
    let finish data nv (s : stream) := if st_fail s then Some None else Some (Some (data, nv, s)) in
    let next data nv s := if decide (nv >= max)%Z then finish data nv s else defaulted_loop fuel data nv max s in
    let '(v, s) := get_number s in
    match v with
    | None =>
      let s := Stream (st_rest s) (st_eof s) false in
      let '(w, s) := get_word s in
      if decide (w = ["/"%char]) then finish data nv (ignore_line s)
      else if decide (head w = Some "-"%char) then next data nv (ignore_line s)
      else Some None
    | Some v =>
      let '(c, s) := peek s in
      if decide (c = Some "*"%char) then
        let s := Stream (tail (st_rest s)) (st_eof s) (st_fail s) in
        let m := to_int v in
        let '(c, s) := peek s in
        if match c with Some c => is_space c | None => false end then next data (nv + m)%Z s
        else
          let '(w, s) := get_number s in
          data ← put_many data nv (Z.to_nat m) (default zero w);
          next data (nv + Z.max 0 m)%Z s
      else
        data ← put data nv v;
        next data (nv + 1)%Z s
    end
  end.
Definition read_defaulted (data : list T) (max : Z) (s : stream) : option (option (list T * Z * stream)) :=
  if decide (Z.of_nat (length data) >= max)%Z then defaulted_loop (length (st_rest s) + 2) data 0 max s else Some None.

(** readVectorData, EclipseGridParserHelpers.hpp:93-125; a negative multiplier
    becomes a length that vector::insert refuses. If no character could be read
    [dummy] is not initialised, but the stream has failed and every branch ends
    in an exception. *)
Fixpoint vector_loop (fuel : nat) (data : list T) (s : stream) : option (option (list T * stream)) :=
  match fuel with
  | 0 => None
  | S fuel =>
    if st_fail s then Some None else
    let '(v, s) := get_number s in
    match v with
    | None =>
      let s := Stream (st_rest s) (st_eof s) false in
      let '(c, s) := get_char s in
      match c with
      | None => Some None
      | Some c =>
        if decide (c = "/"%char) then let s := ignore_line s in if st_fail s then Some None else Some (Some (data, s))
        else if decide (c = "-"%char) then vector_loop fuel data (ignore_line s)
        else Some None
      end
    | Some v =>
      let '(c, s) := peek s in
      if decide (c = Some "*"%char) then
        let s := Stream (tail (st_rest s)) (st_eof s) (st_fail s) in
        let m := to_int v in
        let '(w, s) := get_number s in
        if decide (m < 0)%Z then Some None else vector_loop fuel (data ++ replicate (Z.to_nat m) (default zero w)) s
      else vector_loop fuel (data ++ [v]) s
    end
  end.
Definition read_vector (s : stream) : option (option (list T * stream)) := vector_loop (length (st_rest s) + 2) [] s.
End read.
