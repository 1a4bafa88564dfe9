(** The run-time parameter tree: opm/core/utility/parameters/ParameterGroup.cpp,
    ParameterGroup_impl.hpp, ParameterTools.cpp, Parameter.hpp, Parameter.cpp,
    ParameterStrings.hpp.

    Strings are lists of 8-bit characters.  Not modelled: messages, the used_
    flags (the only thing a lookup changes), output_is_enabled_, and XML files,
    which enter as an arbitrary function.  The parent_ pointer of a group is
    represented by the list of enclosing groups a lookup passes through.
    [None] is a call that does not return (fuel exhausted for every amount). *)
From Coq Require Import Ascii.
From stdpp Require Import strings.
From Verif Require Import Base.

Notation str := (list ascii).
(** ParameterStrings.hpp:45-63: "/", "//", "=", "cmdline". *)
Definition slash : ascii := "/"%char.
Definition equals : ascii := "="%char.
Definition newline : ascii := "010"%char.
Definition dot : ascii := "."%char.
Definition comment : str := [slash; slash].
Definition cmdline : str := ["c"; "m"; "d"; "l"; "i"; "n"; "e"]%char.
Definition dummy : str := ["d"; "u"; "m"; "m"; "y"]%char.
Definition zero : str := ["0"%char].
Definition xml_ext : str := ["x"; "m"; "l"]%char.
Definition param_ext : str := ["p"; "a"; "r"; "a"; "m"]%char.

(** std::string::find(pat) and find(pat, pos). *)
Fixpoint starts_with (pat s : str) : bool :=
  match pat, s with
  | [], _ => true
  | c :: pat, d :: s => bool_decide (c = d) && starts_with pat s
  | _ :: _, [] => false
  end.
Fixpoint find (pat s : str) : option nat :=
  if starts_with pat s then Some 0 else match s with [] => None | _ :: s => S <$> find pat s end.
Definition find_at (pat s : str) (pos : nat) : option nat :=
  if decide (pos ≤ length s) then (λ i, pos + i) <$> find pat (drop pos s) else None.
(** std::string::rfind of one character. *)
Fixpoint rfind (c : ascii) (s : str) : option nat :=
  match s with
  | [] => None
  | d :: s => match rfind c s with Some i => Some (S i) | None => if decide (c = d) then Some 0 else None end
  end.
(** std::less<std::string>: lexicographic by unsigned character. *)
Fixpoint str_lt (s t : str) : bool :=
  match s, t with
  | [], [] => false
  | [], _ :: _ => true
  | _ :: _, [] => false
  | c :: s, d :: t => if decide (c = d) then str_lt s t else bool_decide (N_of_ascii c < N_of_ascii d)%N
  end.

(** Parameter (Parameter.hpp:51-77) and ParameterGroup (ParameterGroup.hpp:262-272);
    the std::map is a list of pairs kept in key order. *)
Inductive item := Param (value type : str) | Group (path : str) (m : list (str * item)).
Notation pmap := (list (str * item)).
(** std::map::find and operator[]=. *)
Fixpoint mfind (k : str) (m : pmap) : option item :=
  match m with [] => None | (k', v) :: m => if decide (k = k') then Some v else mfind k m end.
Fixpoint mset (k : str) (v : item) (m : pmap) : pmap :=
  match m with
  | [] => [(k, v)]
  | (k', v') :: m' => if decide (k = k') then (k, v) :: m' else if str_lt k k' then (k, v) :: m else (k', v') :: mset k v m'
  end.

(** Results of calls that may throw. *)
Inductive res (A : Type) := Ok (a : A) | NotFound | WrongType | Requirement | BadCast | IoError.
Arguments Ok {A}. Arguments NotFound {A}. Arguments WrongType {A}. Arguments Requirement {A}. Arguments BadCast {A}. Arguments IoError {A}.
Definition rmap {A B} (f : A → B) (r : res A) : res B :=
  match r with Ok a => Ok (f a) | NotFound => NotFound | WrongType => WrongType | Requirement => Requirement | BadCast => BadCast | IoError => IoError end.

(** split, ParameterTools.cpp:43-53. *)
Definition split (name : str) : str * str :=
  match find [slash] name with
  | None => (name, [])
  | Some pos => (take pos name, drop (pos + 1) name)
  end.

(** The loop at ParameterGroup.cpp:212-214. *)
Fixpoint skip_empty (fuel : nat) (np : str * str) : option (str * str) :=
  match fuel with
  | 0 => None
  | S f => if decide (fst np = []) then skip_empty f (split (snd np)) else Some np
  end.
(** insertParameter, ParameterGroup.cpp:208-246.  A bad_cast leaves the tree
    unchanged: nothing is stored before it is thrown. *)
Fixpoint insert_parameter (fuel : nat) (name value path : str) (m : pmap) : option (res pmap) :=
  match fuel with
  | 0 => None
  | S f =>
      '(first, rest) ← skip_empty fuel (split name);
      match mfind first m with
      | None =>
          if decide (rest = []) then Some (Ok (mset first (Param value cmdline) m))
          else let p := path ++ [slash] ++ first in
               r ← insert_parameter f rest value p [];
               Some (rmap (λ m', mset first (Group p m') m) r)
      | Some it =>
          if decide (rest = []) then Some (Ok (mset first (Param value cmdline) m))
          else match it with
               | Group p m1 => r ← insert_parameter f rest value p m1; Some (rmap (λ m', mset first (Group p m') m) r)
               | Param _ _ => Some BadCast
               end
      end
  end.

(** has, ParameterGroup.cpp:72-84. *)
Fixpoint has (fuel : nat) (name : str) (m : pmap) : option (res bool) :=
  match fuel with
  | 0 => None
  | S f =>
      let '(first, rest) := split name in
      match mfind first m with
      | None => Some (Ok false)
      | Some it => if decide (rest = []) then Some (Ok true) else
          match it with Group _ m1 => has f rest m1 | Param _ _ => Some BadCast end
      end
  end.
(** The search in get and getDefault, ParameterGroup_impl.hpp:169-214, 226-285;
    [parents] are the enclosing groups, innermost first. *)
Fixpoint get_item (fuel : nat) (name : str) (m : pmap) (parents : list pmap) : option (res item) :=
  match fuel with
  | 0 => None
  | S f =>
      let '(first, rest) := split name in
      match mfind first m with
      | None => match parents with [] => Some NotFound | p :: ps => get_item f name p ps end
      | Some it => if decide (rest = []) then Some (Ok it) else
          match it with Group _ m1 => get_item f rest m1 (m :: parents) | Param _ _ => Some BadCast end
      end
  end.
Section typed.
Context {T : Type}.
(** ParameterMapItemTrait<T>, Parameter.hpp:85-211: the type's name and the
    conversion of the text; [req] is the requirement object. *)
Variables (tname : str) (conv : str → option T) (req : T → bool).
(** translate, ParameterGroup_impl.hpp:287-322, with correct_parameter_tag and
    correct_type, Parameter.cpp:44-72. *)
Definition translate (it : item) : res T :=
  match it with
  | Group _ _ => WrongType
  | Param v ty =>
      if decide (ty ≠ tname ∧ ty ≠ cmdline) then WrongType else
      match conv v with None => WrongType | Some x => if req x then Ok x else Requirement end
  end.
(** get, ParameterGroup_impl.hpp:169-214. *)
Definition get (fuel : nat) (name : str) (m : pmap) (parents : list pmap) : option (res T) :=
  r ← get_item fuel name m parents;
  Some (match r with Ok it => translate it | NotFound => NotFound | WrongType => WrongType | Requirement => Requirement | BadCast => BadCast | IoError => IoError end).
(** getDefault, ParameterGroup_impl.hpp:226-285. *)
Definition get_default (fuel : nat) (name : str) (d : T) (m : pmap) (parents : list pmap) : option (res T) :=
  r ← get_item fuel name m parents;
  Some (match r with Ok it => translate it | NotFound => if req d then Ok d else Requirement
                   | WrongType => WrongType | Requirement => Requirement | BadCast => BadCast | IoError => IoError end).
End typed.

(** writeParamToStream, ParameterGroup.cpp:158-177.  Only the two kinds of items exist. *)
Fixpoint write (it : item) (path name : str) : str :=
  match it with
  | Param v _ => path ++ [slash] ++ name ++ [equals] ++ v ++ [newline]
  | Group p m =>
      (if decide (m = []) then p ++ [slash] ++ dummy ++ [equals] ++ zero ++ [newline] else []) ++
      (fix go (m : pmap) : str := match m with [] => [] | (k, it) :: m => write it p k ++ go m end) m
  end.
Definition write_group (path : str) (m : pmap) : str := write (Group path m) [] [].

(** std::getline repeatedly: the pieces between newlines; no piece after a final newline. *)
Fixpoint lines (s : str) : list str :=
  match s with
  | [] => []
  | c :: s => if decide (c = newline) then [] :: lines s
              else match lines s with [] => [[c]] | l :: ls => (c :: l) :: ls end
  end.
(** The body of the loop of readParam, ParameterGroup.cpp:121-142.  find returning
    npos becomes the int -1; then pos is 0, and substr(0,-1) is the whole line. *)
Definition read_line (fuel : nat) (line path : str) (m : pmap) : option (res pmap) :=
  let commentpos := find comment line in
  if decide (commentpos = Some 0) then Some (Ok m) else
  let line := match commentpos with Some p => take p line | None => line end in
  let fpos := find [equals] line in
  let pos := match fpos with Some p => p + 1 | None => 0 end in
  match find_at [equals] line pos with
  | None =>
      let name := match fpos with Some p => take p line | None => line end in
      let value := drop pos line in
      insert_parameter fuel name value path m
  | Some _ => Some (Ok m)
  end.
Fixpoint read_lines (fuel : nat) (ls : list str) (path : str) (m : pmap) : option (res pmap) :=
  match ls with
  | [] => Some (Ok m)
  | l :: ls => r ← read_line fuel l path m; match r with Ok m => read_lines fuel ls path m | r => Some r end
  end.
(** readParam, ParameterGroup.cpp:111-144, given the contents of the file. *)
Definition read_param (fuel : nat) (text path : str) (m : pmap) : option (res pmap) := read_lines fuel (lines text) path m.

(** filename_split, ParameterGroup_impl.hpp:88-95: the extension. *)
Definition extension (f : str) : str := match rfind dot f with Some i => drop (i + 1) f | None => f end.
Section args.
(** The file system, and readXML (ParameterXML.cpp) as an arbitrary function. *)
Variables (files : str → option str) (read_xml : str → pmap → option (res pmap)).
(** The loop over arguments, ParameterGroup_impl.hpp:121-143. *)
Fixpoint sort_args (args : list str) : list str * list (str * str) :=
  match args with
  | [] => ([], [])
  | a :: args =>
      let '(fs, as_) := sort_args args in
      match find [equals] a with
      | None => (a :: fs, as_)
      | Some fpos =>
          match find_at [equals] a (fpos + 1) with
          | None => (fs, (take fpos a, drop (fpos + 1) a) :: as_)
          | Some _ => (fs, as_)
          end
      end
  end.
Definition read_file (fuel : nat) (f : str) (m : pmap) : option (res pmap) :=
  if decide (extension f = xml_ext) then read_xml f m
  else if decide (extension f = param_ext) then match files f with Some t => read_param fuel t [] m | None => Some IoError end
  else Some (Ok m).
Fixpoint read_files (fuel : nat) (fs : list str) (m : pmap) : option (res pmap) :=
  match fs with
  | [] => Some (Ok m)
  | f :: fs => r ← read_file fuel f m; match r with Ok m => read_files fuel fs m | r => Some r end
  end.
Fixpoint assign_all (fuel : nat) (as_ : list (str * str)) (path : str) (m : pmap) : option (res pmap) :=
  match as_ with
  | [] => Some (Ok m)
  | (n, v) :: as_ => r ← insert_parameter fuel n v path m; match r with Ok m => assign_all fuel as_ path m | r => Some r end
  end.
(** parseCommandLineArguments, ParameterGroup_impl.hpp:116-161; [args] without the
    program name. *)
Definition parse_args (fuel : nat) (args : list str) (m : pmap) : option (res pmap) :=
  let '(fs, as_) := sort_args args in
  r ← read_files fuel fs m;
  match r with Ok m => assign_all fuel as_ [] m | r => Some r end.
End args.
