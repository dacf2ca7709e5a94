(** Model of marley::JSON: the value type, the printer and the parser
    (include/marley/JSON.hh). *)
From Coq Require Import List Ascii String ZArith Bool Lia.
From Coq Require Import Floats.SpecFloat.
From Verif Require Import Base Dbl.
Import ListNotations.
Local Open Scope Z_scope.

(** JSON.hh 61-87: the tagged union. A std::map is the list of its entries in
    key order; std::string is a list of bytes; double is binary64; long is an
    integer (the range of long is enforced where values are read). Memory
    ownership of the union (set_type, copy and move) is not modelled. *)
Inductive json :=
| JNull
| JBool (v : bool)
| JInt (z : Z)
| JFlt (x : spec_float)
| JStr (s : bytes)
| JArr (l : list json)
| JObj (l : list (bytes * json)).

Definition dquote : ascii := chr 34.
Definition bslash : ascii := chr 92.

(** ** Objects *)

(** std::string's operator<: lexicographic on unsigned bytes
    (std::char_traits<char>::compare). *)
Fixpoint bytes_ltb (x y : bytes) : bool :=
  match x, y with
  | _, [] => false
  | [], _ :: _ => true
  | c :: x', d :: y' =>
      if code c <? code d then true
      else if code d <? code c then false
      else bytes_ltb x' y'
  end.

Fixpoint bytes_eqb (x y : bytes) : bool :=
  match x, y with
  | [], [] => true
  | c :: x', d :: y' => ceq c d && bytes_eqb x' y'
  | _, _ => false
  end.

(** JSON.hh 296-299 (operator[] on a key followed by an assignment): insert or
    replace in the std::map. *)
Fixpoint obj_set (k : bytes) (v : json) (l : list (bytes * json)) : list (bytes * json) :=
  match l with
  | [] => [(k, v)]
  | (k', v') :: r =>
      if bytes_eqb k k' then (k, v) :: r
      else if bytes_ltb k k' then (k, v) :: l
      else (k', v') :: obj_set k v r
  end.

(** JSON.hh 311-313, 328-332 (const at, has_key): look up a key. *)
Fixpoint obj_get (k : bytes) (l : list (bytes * json)) : option json :=
  match l with
  | [] => None
  | (k', v) :: r => if bytes_eqb k k' then Some v else obj_get k r
  end.

(** ** Printing *)

(** JSON.hh 44-58, json_escape: one character. *)
Definition escape1 (c : ascii) : bytes :=
  let z := code c in
  if z =? 34 then [bslash; dquote]
  else if z =? 92 then [bslash; bslash]
  else if z =? 8 then [bslash; "b"%char]
  else if z =? 12 then [bslash; "f"%char]
  else if z =? 10 then [bslash; "n"%char]
  else if z =? 13 then [bslash; "r"%char]
  else if z =? 9 then [bslash; "t"%char]
  else [c].

(** JSON.hh 44-58, json_escape. *)
Definition escape (s : bytes) : bytes := flat_map escape1 s.

Definition quoted (s : bytes) : bytes := dquote :: escape s ++ [dquote].

(** A newline if pretty-printing. *)
Definition pnl (pretty : bool) : bytes := if pretty then [nl] else [].

(** JSON.hh 471-566, print. [step] is indent_step, [ind] is current_indent.
    Simplification: indents are natural numbers, so the wrap-around of unsigned
    int at 2^32 columns is not modelled. *)
Fixpoint print (step : nat) (pretty : bool) (ind : nat) (j : json) : bytes :=
  match j with
  | JNull => b "null"
  | JBool v => if v then b "true" else b "false"
  | JInt z => show_int z
  | JFlt x => show_g17 x
  | JStr s => quoted s
  | JObj l =>
      let ind' := if pretty then (ind + step)%nat else ind in
      let fix members (skip : bool) (l : list (bytes * json)) : bytes :=
        match l with
        | [] => []
        | (k, v) :: r =>
            (if skip then [] else ","%char :: pnl pretty)
            ++ spaces ind' ++ quoted k
            ++ (if pretty then b " : " else b ":")
            ++ print step pretty ind' v
            ++ members false r
        end in
      "{"%char :: pnl pretty ++ members true l ++ pnl pretty ++ spaces ind ++ ["}"%char]
  | JArr l =>
      let ind' := if pretty then (ind + step)%nat else ind in
      let fix elements (skip : bool) (l : list json) : bytes :=
        match l with
        | [] => []
        | v :: r =>
            (if skip then [] else ","%char :: pnl pretty)
            ++ spaces ind'
            ++ print step pretty ind' v
            ++ elements false r
        end in
      "["%char :: pnl pretty ++ elements true l ++ pnl pretty ++ spaces ind ++ ["]"%char]
  end.

(** JSON.hh 456-467, dump_string. [None] is a negative indent_step (the default
    -1): compact. Also operator<< (JSON.hh, end of file) for [None]. *)
Definition dump (indent : option nat) (j : json) : bytes :=
  match indent with
  | Some n => print n true 0 j
  | None => print 0 false 0 j
  end.

(** ** Reading

    The input stream is the list of bytes not yet read. std::istream::get at the
    end of the stream returns EOF, which the code stores in a char; it compares
    unequal to every character the code looks for, and putting it back has no
    effect because the stream has failed. It is [None] below. *)

(** JSON.hh 737-749, skip_comment, multi-line case: up to and including the
    first star followed by a slash, or to the end of the stream. *)
Fixpoint skip_block (s : bytes) : bytes :=
  match s with
  | [] => []
  | c :: r =>
      if ceq c "*"%char then
        match r with
        | d :: r' => if ceq d "/"%char then r' else skip_block r
        | [] => []
        end
      else skip_block r
  end.

(** JSON.hh 737-749, skip_comment, single-line case: through the newline. *)
Fixpoint skip_line (s : bytes) : bytes :=
  match s with
  | [] => []
  | c :: r => if ceq c nl then r else skip_line r
  end.

(** JSON.hh 753-763, skip_ws: skip white space and comments; the character read
    (None = end of stream) and the rest. *)
Fixpoint skip_ws (f : nat) (s : bytes) : res (option ascii * bytes) :=
  match f with
  | O => Er NoFuel
  | S f' =>
      match s with
      | [] => Ok (None, [])
      | c :: r =>
          if is_space c then skip_ws f' r
          else if ceq c "/"%char then
            match r with
            | d :: r' =>
                if ceq d "/"%char then skip_ws f' (skip_line r')
                else if ceq d "*"%char then skip_ws f' (skip_block r')
                else Ok (Some c, r)
            | [] => Ok (Some c, r)
            end
          else Ok (Some c, r)
      end
  end.

(** JSON.hh 775-780, get_next_char. *)
Definition next_char (s : bytes) : res (option ascii * bytes) :=
  skip_ws (S (List.length s)) s.

(** JSON.hh 767-771, consume_ws. *)
Definition consume_ws (s : bytes) : res bytes :=
  do (c, r) <- next_char s;
  Ok (match c with Some c => c :: r | None => r end).

(** The hexadecimal digits accepted after \u (JSON.hh 882-884). *)
Definition is_hex (c : ascii) : bool :=
  let z := code c in
  ((48 <=? z) && (z <=? 57)) || ((97 <=? z) && (z <=? 102)) || ((65 <=? z) && (z <=? 70)).

(** JSON.hh 864-899, parse_string, after the opening quote. [acc] is the string
    read so far, reversed. An unterminated string is returned as it is: the
    error shows up at the next read. *)
Fixpoint parse_string (s : bytes) (acc : bytes) : res (bytes * bytes) :=
  match s with
  | [] => Ok (rev acc, [])
  | c :: r =>
      if ceq c dquote then Ok (rev acc, r)
      else if ceq c bslash then
        match r with
        | [] => Ok (rev (bslash :: acc), [])
        | d :: r' =>
            if ceq d dquote then parse_string r' (dquote :: acc)
            else if ceq d bslash then parse_string r' (bslash :: acc)
            else if ceq d "/"%char then parse_string r' ("/"%char :: acc)
            else if ceq d "b"%char then parse_string r' (chr 8 :: acc)
            else if ceq d "f"%char then parse_string r' (chr 12 :: acc)
            else if ceq d "n"%char then parse_string r' (chr 10 :: acc)
            else if ceq d "r"%char then parse_string r' (chr 13 :: acc)
            else if ceq d "t"%char then parse_string r' (chr 9 :: acc)
            else if ceq d "u"%char then
              match r' with
              | h1 :: h2 :: h3 :: h4 :: r'' =>
                  if is_hex h1 && is_hex h2 && is_hex h3 && is_hex h4 then
                    parse_string r'' (h4 :: h3 :: h2 :: h1 :: "u"%char :: bslash :: acc)
                  else Er MarleyErr
              | _ => Er MarleyErr
              end
            else parse_string r' (bslash :: acc)
        end
      else parse_string r (c :: acc)
  end.

(** *** Numbers *)

(** JSON.hh 908-919: collect '-', digits and '.' into [val]. *)
Definition is_num_char (c : ascii) : bool :=
  ceq c "-"%char || is_digit c || ceq c "."%char.

Fixpoint span_num (s : bytes) : bytes * bytes :=
  match s with
  | c :: r => if is_num_char c then let '(v, t) := span_num r in (c :: v, t)
              else ([], s)
  | [] => ([], [])
  end.

(** The characters that may follow a number (JSON.hh 925, 935). *)
Definition is_delim (c : ascii) : bool :=
  is_space c || ceq c ","%char || ceq c "]"%char || ceq c "}"%char.

Definition delim_next (s : bytes) : bool :=
  match s with c :: _ => is_delim c | [] => false end.

Definition long_min := (- 2 ^ 63)%Z.
Definition long_max := (2 ^ 63 - 1)%Z.

(** Optional minus sign. (strtol and strtod also accept white space and '+',
    which cannot occur in the strings parse_number passes.) *)
Definition take_minus (s : bytes) : bool * bytes :=
  match s with
  | c :: r => if ceq c "-"%char then (true, r) else (false, s)
  | [] => (false, [])
  end.

(** std::stol: longest prefix that is an integer. *)
Definition stol (s : bytes) : res Z :=
  let '(neg, r) := take_minus s in
  match span_digits r with
  | ([], _) => Er StdInvalid
  | (ds, _) =>
      let z := if neg then - digits_val ds else digits_val ds in
      if (z <? long_min) || (long_max <? z) then Er StdRange else Ok z
  end.

(** The double nearest to (-1)^s * D * 10^k, or out_of_range as std::stod does
    when strtod reports ERANGE: overflow, or an inexact result that is zero or
    subnormal. (glibc detects tininess after rounding; an inexact value that
    rounds up to exactly 2^-1022 may also be reported by other C libraries.) *)
Definition strtod_val (s : bool) (D k : Z) : res spec_float :=
  let n := scale_num 10 D (- k) in
  let d := scale_den 10 1 (- k) in
  match rnd64 s n d with
  | S754_infinity _ => Er StdRange
  | S754_nan => Er StdRange
  | S754_zero t => if D =? 0 then Ok (S754_zero t) else Er StdRange
  | S754_finite t m e =>
      if (Zpos m <? 2 ^ 52) && negb (dnum m e * d =? n * dden e) then Er StdRange
      else Ok (S754_finite t m e)
  end.

(** std::stod on a string of '-', digits and '.': longest valid prefix. *)
Definition stod (s : bytes) : res spec_float :=
  let '(neg, r) := take_minus s in
  let '(ip, r1) := span_digits r in
  let fp := match r1 with
            | c :: r2 => if ceq c "."%char then fst (span_digits r2) else []
            | [] => []
            end in
  match ip ++ fp with
  | [] => Er StdInvalid
  | ds => strtod_val neg (digits_val ds) (- Z.of_nat (List.length fp))
  end.

(** JSON.hh 902-950, parse_number. [s] starts with the character [old]. *)
Definition parse_number (s : bytes) : res (json * bytes) :=
  let '(val, r) := span_num s in
  let isDouble := existsb (fun c => ceq c "."%char) val in
  match r with
  | [] => Er MarleyErr
  | c :: r' =>
      if ceq c "E"%char || ceq c "e"%char then
        let '(neg, r1) := take_minus r' in
        let '(ds, t) := span_digits r1 in
        if delim_next t then
          do e <- stol (if neg then "-"%char :: ds else ds);
          do x <- (if isDouble then stod val else do z <- stol val; Ok (dbl_of_int z));
          Ok (JFlt (dbl_mul x (dbl_pow10 e)), t)
        else Er MarleyErr
      else if is_delim c then
        if isDouble then do x <- stod val; Ok (JFlt (dbl_mul x (dbl_pow10 0)), r)
        else do z <- stol val; Ok (JInt z, r)
      else Er MarleyErr
  end.

(** JSON.hh 952-973 and 975-984, parse_bool and parse_null: the literal must
    follow exactly; what comes after it is not examined. *)
Fixpoint expect (lit s : bytes) : option bytes :=
  match lit, s with
  | [], _ => Some s
  | _ :: _, [] => None
  | c :: l, d :: s' => if ceq c d then expect l s' else None
  end.

Definition parse_lit (lit : bytes) (v : json) (s : bytes) : res (json * bytes) :=
  match expect lit s with
  | Some r => Ok (v, r)
  | None => Er MarleyErr
  end.

(** JSON.hh 798-812: an unquoted key runs up to ':' or white space. *)
Fixpoint span_key (s : bytes) : bytes * bytes :=
  match s with
  | c :: r => if ceq c ":"%char || is_space c then ([], s)
              else let '(k, t) := span_key r in (c :: k, t)
  | [] => ([], [])
  end.

(** JSON.hh 782-1005: parse_object, parse_array, parse_next. Fuel: [load] gives
    enough, see the theorem for C03. JSON.hh 796 calls parse_next to read a
    quoted key when the next character is a quote; parse_next then calls
    parse_string, which is called here directly. Every key goes through
    to_string, i.e. json_escape (JSON.hh 822, 359-362). *)
Fixpoint parse_next (f : nat) (s : bytes) : res (json * bytes) :=
  match f with
  | O => Er NoFuel
  | S f' =>
      do (c, r) <- next_char s;
      match c with
      | None => Er MarleyErr
      | Some c =>
          if ceq c "["%char then parse_arr f' [] r
          else if ceq c "{"%char then parse_obj f' [] r
          else if ceq c dquote then
            do (v, r') <- parse_string r []; Ok (JStr v, r')
          else if ceq c "t"%char then parse_lit (b "rue") (JBool true) r
          else if ceq c "f"%char then parse_lit (b "alse") (JBool false) r
          else if ceq c "n"%char then parse_lit (b "ull") JNull r
          else if is_digit c || ceq c "-"%char then parse_number (c :: r)
          else Er MarleyErr
      end
  end
with parse_arr (f : nat) (acc : list json) (s : bytes) : res (json * bytes) :=
  match f with
  | O => Er NoFuel
  | S f' =>
      do s1 <- consume_ws s;
      match s1 with
      | c :: r =>
          if ceq c "]"%char then Ok (JArr (rev acc), r)
          else
            do (v, s2) <- parse_next f' s1;
            do (c, s3) <- next_char s2;
            match c with
            | Some c =>
                if ceq c ","%char then parse_arr f' (v :: acc) s3
                else if ceq c "]"%char then Ok (JArr (rev (v :: acc)), s3)
                else Er MarleyErr
            | None => Er MarleyErr
            end
      | [] => Er MarleyErr
      end
  end
with parse_obj (f : nat) (acc : list (bytes * json)) (s : bytes) : res (json * bytes) :=
  match f with
  | O => Er NoFuel
  | S f' =>
      do s1 <- consume_ws s;
      match s1 with
      | c :: r =>
          if ceq c "}"%char then Ok (JObj acc, r)
          else
            do (k, s2) <- (if ceq c dquote then parse_string r [] else Ok (span_key s1));
            do (c, s3) <- next_char s2;
            match c with
            | Some c =>
                if ceq c ":"%char then
                  do s4 <- consume_ws s3;
                  do (v, s5) <- parse_next f' s4;
                  let acc' := obj_set (escape k) v acc in
                  do (c, s6) <- next_char s5;
                  match c with
                  | Some c =>
                      if ceq c ","%char then parse_obj f' acc' s6
                      else if ceq c "}"%char then Ok (JObj acc', s6)
                      else Er MarleyErr
                  | None => Er MarleyErr
                  end
                else Er MarleyErr
            | None => Er MarleyErr
            end
      | [] => Er MarleyErr
      end
  end.

(** JSON.hh 1017-1028, load from a stream: the value and what is left of the
    stream. *)
Definition load_rest (s : bytes) : res (json * bytes) :=
  do (c, r) <- next_char s;
  match c with
  | Some c => if ceq c "{"%char then parse_next (2 * List.length s + 3) (c :: r)
              else Er MarleyErr
  | None => Er MarleyErr
  end.

(** JSON.hh 1008-1033, load_file and load: trailing text is ignored. *)
Definition load (s : bytes) : res json :=
  do (j, _) <- load_rest s; Ok j.

(** ** Accessors *)

(** JSON.hh 354-362, to_string: the escaped form; empty if not a string. *)
Definition to_string (j : json) : bytes :=
  match j with JStr s => escape s | _ => [] end.

(** JSON.hh 371-382, to_double; the result and ok. *)
Definition to_double (j : json) : spec_float * bool :=
  match j with
  | JFlt x => (x, true)
  | JInt z => (dbl_of_int z, true)
  | _ => (S754_zero false, false)
  end.

(** JSON.hh 392-400, to_long. *)
Definition to_long (j : json) : Z * bool :=
  match j with JInt z => (z, true) | _ => (0, false) end.

(** JSON.hh 410-418, to_bool. *)
Definition to_bool (j : json) : bool * bool :=
  match j with JBool v => (v, true) | _ => (false, false) end.

(** JSON.hh 328-332, has_key. *)
Definition has_key (k : bytes) (j : json) : bool :=
  match j with
  | JObj l => match obj_get k l with Some _ => true | None => false end
  | _ => false
  end.

(** JSON.hh 311-313, const at(key): std::map::at throws out_of_range if the key
    is missing; on anything but an object the union member read is not a map
    pointer. *)
Definition at_key (k : bytes) (j : json) : res json :=
  match j with
  | JObj l => match obj_get k l with Some v => Ok v | None => Er StdRange end
  | _ => Er Undefined
  end.

(** JSON.hh 447-451, const array_range: the elements if an array, an empty range
    otherwise. *)
Definition array_range (j : json) : list json :=
  match j with JArr l => l | _ => [] end.
