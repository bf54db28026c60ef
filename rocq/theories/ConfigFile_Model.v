(** * Model of the property file reader.
    /repo/core/modules/core/include/klepsydra/core/config_file.h 27-144, prop_file_convert.h 38-53,
    /repo/core/modules/core/src/prop_file_environment.cpp 25-99.
    A text is a list of characters (bytes), as read in binary. The conversions of istringstream are modelled for std::string, int and bool (C locale, libstdc++); float is not.
    A result [None] is std::invalid_argument. *)
From Coq Require Import Ascii ZArith.
From stdpp Require Import prelude.
Local Open Scope list_scope.

Notation text := (list ascii).
Global Instance ascii_eq_dec : EqDecision ascii := Ascii.ascii_dec.
Definition TAB : ascii := "009"%char.
Definition SP : ascii := " "%char.
Definition NL : ascii := "010"%char.
Definition EQ : ascii := "="%char.
Definition SEMI : ascii := ";"%char.
Definition is (a b : ascii) : bool := Ascii.eqb a b.
Definition blank (c : ascii) : bool := is c TAB || is c SP.

Fixpoint take_while (p : ascii -> bool) (l : text) : text := match l with [] => [] | c :: l' => if p c then c :: take_while p l' else [] end.
Fixpoint drop_while (p : ascii -> bool) (l : text) : text := match l with [] => [] | c :: l' => if p c then drop_while p l' else l end.

(** lines 32-36 *)
Definition remove_comment (l : text) : text := take_while (fun c => negb (is c SEMI)) l.
(** lines 38-41 *)
Definition only_whitespace (l : text) : bool := forallb (fun c => is c SP) l.
(** erase(0, find_first_not_of("\t ")): lines 45, 72, 65 *)
Definition trim_left (l : text) : text := drop_while blank l.
(** erase(find_last_not_of("\t ") + 1): line 66 *)
Definition trim_right (l : text) : text := rev (drop_while blank (rev l)).
Definition has_sep (l : text) : bool := existsb (fun c => is c EQ) l.
Definition before_sep (l : text) : text := take_while (fun c => negb (is c EQ)) l.
Definition after_sep (l : text) : text := List.tl (drop_while (fun c => negb (is c EQ)) l).
(** lines 42-54 (called with a line that has a separator) *)
Definition valid_line (l : text) : bool :=
  let t := trim_left l in
  match t with
  | c :: _ => if is c EQ then false else existsb (fun c => negb (is c SP)) (after_sep t)
  | [] => existsb (fun c => negb (is c SP)) (after_sep t)
  end.
(** lines 56-61 *)
Definition extract_key (t : text) : text := take_while (fun c => negb (blank c)) (before_sep t).
(** lines 62-67 *)
Definition extract_value (t : text) : text := trim_right (trim_left (after_sep t)).

Definition contents := list (text * text).          (* std::map: keys are distinct *)
Fixpoint lookup_key (m : contents) (k : text) : option text :=
  match m with [] => None | (k', v) :: m' => if decide (k = k') then Some v else lookup_key m' k end.
(** One line of extractKeys (lines 103-115) with parseLine (86-97) and extractContents (69-84). *)
Definition parse_line (m : contents) (line : text) : option contents :=
  match line with
  | [] => Some m
  | _ =>
      let t := remove_comment line in
      if only_whitespace t then Some m
      else if negb (has_sep t) then None
      else if negb (valid_line t) then None
      else let u := trim_left t in
           match lookup_key m (extract_key u) with
           | Some _ => None
           | None => Some (m ++ [(extract_key u, extract_value u)])
           end
  end.
Fixpoint parse_lines (m : contents) (ls : list text) : option contents :=
  match ls with
  | [] => Some m
  | l :: ls' => match parse_line m l with Some m' => parse_lines m' ls' | None => None end
  end.
(** std::getline until the end of the file (a last empty line makes no difference: empty lines are skipped). *)
Fixpoint split_lines (cur : text) (l : text) : list text :=
  match l with
  | [] => [rev cur]
  | c :: l' => if is c NL then rev cur :: split_lines [] l' else split_lines (c :: cur) l'
  end.
Definition parse (file : text) : option contents := parse_lines [] (split_lines [] file).

(** ** Conversions: string_to_T. isspace in the C locale. *)
Definition space (c : ascii) : bool := let n := nat_of_ascii c in (n =? 32) || ((9 <=? n) && (n <=? 13)).
Definition word (v : text) : text := take_while (fun c => negb (space c)) (drop_while space v).
Fixpoint has_0x (v : text) : bool :=
  match v with
  | c :: r => match r with d :: _ => (is c "0"%char && is d "x"%char) || has_0x r | [] => false end
  | [] => false
  end.
(** T = std::string: operator>> reads one word. *)
Definition to_string (v : text) : option text :=
  match word v with
  | [] => if has_0x v then Some [] else None
  | w => Some w
  end.
(** Digits in base 10 or 16. *)
Definition digit (base : Z) (c : ascii) : option Z :=
  let n := Z.of_nat (nat_of_ascii c) in
  let d := if (48 <=? n)%Z && (n <=? 57)%Z then Some (n - 48)%Z
           else if (65 <=? n)%Z && (n <=? 70)%Z then Some (n - 55)%Z
           else if (97 <=? n)%Z && (n <=? 102)%Z then Some (n - 87)%Z else None in
  match d with Some x => if (x <? base)%Z then Some x else None | None => None end.
Fixpoint digits (base : Z) (acc : Z) (l : text) : Z :=
  match l with
  | c :: l' => match digit base c with Some d => digits base (acc * base + d)%Z l' | None => acc end
  | [] => acc
  end.
Definition some_digit (base : Z) (l : text) : bool := match l with c :: _ => match digit base c with Some _ => true | None => false end | [] => false end.
Definition int_min : Z := (- 2147483648)%Z.
Definition int_max : Z := 2147483647%Z.
(** The number std::num_get reads from a text (white space, sign, in base 16 an optional 0x, digits), or nothing if there are no digits. *)
Definition scan (base : Z) (v : text) : option Z :=
  let v := drop_while space v in
  let '(neg, v) := match v with c :: r => if is c "-"%char then (true, r) else if is c "+"%char then (false, r) else (false, v) | [] => (false, v) end in
  let v := match v with
           | a :: b :: r => if (base =? 16)%Z && is a "0"%char && (is b "x"%char || is b "X"%char) && some_digit 16 r then r else v
           | _ => v
           end in
  if some_digit base v then Some (if neg then (- digits base 0 v)%Z else digits base 0 v) else None.
(** num_get for int: value stored, and whether the stream is still good. *)
Definition num_get (base : Z) (v : text) : Z * bool :=
  match scan base v with
  | Some z => if (z <? int_min)%Z then (int_min, false) else if (int_max <? z)%Z then (int_max, false) else (z, true)
  | None => (0%Z, false)
  end.
(** num_get for bool without boolalpha: 0 and 1 are read, another number gives true and a failure, no number false and a failure (a number too large for long too is
    not 0 or 1, so its saturation makes no difference). *)
Definition bool_get (base : Z) (v : text) : bool * bool :=
  match scan base v with
  | Some z => if (z =? 0)%Z then (false, true) else (true, (z =? 1)%Z)
  | None => (false, false)
  end.
(** T = int: a failure is only checked when "0x" does not occur in the text. *)
Definition to_int (v : text) : option Z :=
  if has_0x v then Some (num_get 16 v).1 else let '(z, ok) := num_get 10 v in if ok then Some z else None.
(** T = bool. *)
Definition to_bool (v : text) : option bool :=
  if has_0x v then Some (bool_get 16 v).1 else let '(z, ok) := bool_get 10 v in if ok then Some z else None.

(** getValueOfKey, lines 135-143. *)
Definition get_value {A} (conv : text -> option A) (m : contents) (k : text) (default : A) : option A :=
  match lookup_key m k with None => Some default | Some v => conv v end.

(** ** PropertyFileEnvironment: getters (25-59) return true whatever happened; setters (61-87) and loadFile (94-98) do nothing. *)
Record pfenv := PfEnv { pf_contents : contents }.
(** prop_file_environment.cpp 21-23: the constructor parses the whole stream; None if parsing throws. *)
Definition pf_open (file : text) : option pfenv := match parse file with Some m => Some (PfEnv m) | None => None end.
Definition pf_get_string (e : pfenv) (key root default : text) : option (text * bool) :=
  match get_value to_string (pf_contents e) key default with Some v => Some (v, true) | None => None end.
Definition pf_get_int (e : pfenv) (key root : text) (default : Z) : option (Z * bool) :=
  match get_value to_int (pf_contents e) key default with Some v => Some (v, true) | None => None end.
Definition pf_get_bool (e : pfenv) (key root : text) (default : bool) : option (bool * bool) :=
  match get_value to_bool (pf_contents e) key default with Some v => Some (v, true) | None => None end.
Definition pf_set_string (e : pfenv) (key root value : text) : pfenv := e.
Definition pf_set_int (e : pfenv) (key root : text) (value : Z) : pfenv := e.
Definition pf_set_bool (e : pfenv) (key root : text) (value : bool) : pfenv := e.
Definition pf_load_file (e : pfenv) (file node : text) : pfenv * bool := (e, false).
