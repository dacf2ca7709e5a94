(** Specification of the JSON documents MARLEY reads and writes, independent of
    the printer and the parser in Json.v. *)
From Coq Require Import List Ascii String ZArith Bool.
From Coq Require Import Floats.SpecFloat.
From Verif Require Import Base Dbl Json.
Import ListNotations.
Local Open Scope Z_scope.

(** ** When two values are the same for a user *)

(** Numeric value of a number: what to_double returns, where the sign of zero
    does not matter. *)
Definition same_dbl (x y : spec_float) : Prop :=
  x = y \/ (exists s, x = S754_zero s) /\ (exists t, y = S754_zero t).

(** The number [j] has the numeric value of the double [x]; it may be stored as
    an integer. *)
Definition same_num (x : spec_float) (j : json) : Prop :=
  match j with
  | JFlt y => same_dbl x y
  | JInt z => same_dbl x (dbl_of_int z)
  | _ => False
  end.

(** Same sign, and the magnitudes differ by at most 2^-51 of the first. *)
Definition near_dbl (x y : spec_float) : Prop :=
  match x, y with
  | S754_zero _, S754_zero _ => True
  | S754_finite s m e, S754_finite t m' e' =>
      s = t /\ 2 ^ 51 * Z.abs (dnum m' e' * dden e - dnum m e * dden e') <= dnum m e * dden e'
  | _, _ => False
  end.

(** The number [j] is close to the double [x]. *)
Definition near_num (x : spec_float) (j : json) : Prop :=
  match j with
  | JFlt y => near_dbl x y
  | JInt z => near_dbl x (dbl_of_int z)
  | _ => False
  end.

(** [j] is a number, whatever its value. *)
Definition some_num (x : spec_float) (j : json) : Prop :=
  match j with JFlt _ | JInt _ => True | _ => False end.

(** [rel_value R j j']: same shape, keys, strings, booleans; the same integers;
    and each floating-point number [x] of [j] corresponds to a number [y] of [j']
    with [R x y]. *)
Inductive rel_value (R : spec_float -> json -> Prop) : json -> json -> Prop :=
| sv_null : rel_value R JNull JNull
| sv_bool v : rel_value R (JBool v) (JBool v)
| sv_int z : rel_value R (JInt z) (JInt z)
| sv_str s : rel_value R (JStr s) (JStr s)
| sv_flt x j : R x j -> rel_value R (JFlt x) j
| sv_arr l l' : Forall2 (rel_value R) l l' -> rel_value R (JArr l) (JArr l')
| sv_obj l l' :
    Forall2 (fun p q => fst p = fst q /\ rel_value R (snd p) (snd q)) l l' ->
    rel_value R (JObj l) (JObj l').

(** The same value, in the eyes of a user. *)
Definition same_value := rel_value same_num.

(** ** Values that can be stored without loss *)

(** Characters json_escape rewrites. *)
Definition needs_escape (c : ascii) : Prop :=
  In (code c) [34; 92; 8; 12; 10; 13; 9].

(** A key made of characters that need no escape. *)
Definition plain_key (k : bytes) : Prop := forall c, In c k -> ~ needs_escape c.

(** |x| = m * 2^e lies in [1e-4, 1e17); dnum/dden is m * 2^e as a fraction. *)
Definition fixed_range (m : positive) (e : Z) : Prop :=
  dden e <= 10000 * dnum m e /\ dnum m e < 10 ^ 17 * dden e.

(** Zero, or a double of magnitude between 1e-4 and 1e17. *)
Definition fixed_dbl (x : spec_float) : Prop :=
  match x with
  | S754_zero _ => True
  | S754_finite _ m e => valid_dbl x = true /\ fixed_range m e
  | _ => False
  end.

Definition is_long (z : Z) : Prop := long_min <= z <= long_max.

(** Keys in strictly increasing order, as a std::map keeps them. *)
Inductive sorted_keys : list bytes -> Prop :=
| sk_nil : sorted_keys []
| sk_cons k l : (forall k', In k' l -> bytes_ltb k k' = true) -> sorted_keys l ->
    sorted_keys (k :: l).

(** Zero, or a double of magnitude between 1e-300 and 1e17. *)
Definition normal_dbl (x : spec_float) : Prop :=
  match x with
  | S754_zero _ => True
  | S754_finite _ m e => valid_dbl x = true /\
      dden e <= 10 ^ 300 * dnum m e /\ dnum m e < 10 ^ 17 * dden e
  | _ => False
  end.

(** Any double of magnitude below 1e17. *)
Definition small_dbl (x : spec_float) : Prop :=
  match x with
  | S754_zero _ => True
  | S754_finite _ m e => valid_dbl x = true /\ dnum m e < 10 ^ 17 * dden e
  | _ => False
  end.

(** Infinite, not a number, or at least 1e17 in magnitude. *)
Definition too_large (x : spec_float) : Prop :=
  match x with
  | S754_finite _ m e => 10 ^ 17 * dden e <= dnum m e
  | S754_infinity _ | S754_nan => True
  | S754_zero _ => False
  end.

(** A JSON value whose numbers are longs or doubles satisfying [P], whose keys
    need no escapes, and whose objects are maps. *)
Inductive all_floats (P : spec_float -> Prop) : json -> Prop :=
| st_null : all_floats P JNull
| st_bool v : all_floats P (JBool v)
| st_int z : is_long z -> all_floats P (JInt z)
| st_flt x : P x -> all_floats P (JFlt x)
| st_str s : all_floats P (JStr s)
| st_arr l : Forall (all_floats P) l -> all_floats P (JArr l)
| st_obj l : sorted_keys (map fst l) -> Forall (fun p => plain_key (fst p)) l ->
    Forall (fun p => all_floats P (snd p)) l -> all_floats P (JObj l).

(** A value that can be stored without loss. *)
Definition storable := all_floats fixed_dbl.

(** What a marley::JSON value in memory always is: longs fit, doubles are
    binary64, keys are distinct and sorted. *)
Inductive wf_json : json -> Prop :=
| wf_null : wf_json JNull
| wf_bool v : wf_json (JBool v)
| wf_int z : is_long z -> wf_json (JInt z)
| wf_flt x : valid_dbl x = true -> wf_json (JFlt x)
| wf_str s : wf_json (JStr s)
| wf_arr l : Forall wf_json l -> wf_json (JArr l)
| wf_obj l : sorted_keys (map fst l) -> Forall (fun p => wf_json (snd p)) l -> wf_json (JObj l).

(** Contains no floating-point number. *)
Inductive no_float : json -> Prop :=
| nf_null : no_float JNull
| nf_bool v : no_float (JBool v)
| nf_int z : no_float (JInt z)
| nf_str s : no_float (JStr s)
| nf_arr l : Forall no_float l -> no_float (JArr l)
| nf_obj l : Forall (fun p => no_float (snd p)) l -> no_float (JObj l).

(** ** The syntax accepted in configuration files *)

(** Contains the two characters star, slash in a row. *)
Definition has_close (s : bytes) : Prop :=
  exists p q, s = p ++ "*"%char :: "/"%char :: q.

(** White space and comments. *)
Inductive ws : bytes -> Prop :=
| ws_nil : ws []
| ws_space c w : is_space c = true -> ws w -> ws (c :: w)
| ws_line body w : ~ In nl body -> ws w ->
    ws ("/"%char :: "/"%char :: body ++ nl :: w)
| ws_block body w : ~ has_close body -> ws w ->
    ws ("/"%char :: "*"%char :: body ++ "*"%char :: "/"%char :: w).

(** Empty or starting with a white-space character. *)
Definition spaced (w : bytes) : Prop :=
  match w with [] => True | c :: _ => is_space c = true end.

(** [str_text v t]: the text t between quotes denotes the string v. *)
Inductive str_text : bytes -> bytes -> Prop :=
| tx_nil : str_text [] []
| tx_plain c v t : c <> dquote -> c <> bslash -> str_text v t ->
    str_text (c :: v) (c :: t)
| tx_quote v t : str_text v t -> str_text (dquote :: v) (bslash :: dquote :: t)
| tx_bslash v t : str_text v t -> str_text (bslash :: v) (bslash :: bslash :: t)
| tx_slash v t : str_text v t -> str_text ("/"%char :: v) (bslash :: "/"%char :: t)
| tx_b v t : str_text v t -> str_text (chr 8 :: v) (bslash :: "b"%char :: t)
| tx_f v t : str_text v t -> str_text (chr 12 :: v) (bslash :: "f"%char :: t)
| tx_n v t : str_text v t -> str_text (chr 10 :: v) (bslash :: "n"%char :: t)
| tx_r v t : str_text v t -> str_text (chr 13 :: v) (bslash :: "r"%char :: t)
| tx_t v t : str_text v t -> str_text (chr 9 :: v) (bslash :: "t"%char :: t)
| tx_u h1 h2 h3 h4 v t : is_hex h1 = true -> is_hex h2 = true -> is_hex h3 = true ->
    is_hex h4 = true -> str_text v t ->
    str_text (bslash :: "u"%char :: h1 :: h2 :: h3 :: h4 :: v)
             (bslash :: "u"%char :: h1 :: h2 :: h3 :: h4 :: t).

Definition all_digits (ds : bytes) : Prop := forall c, In c ds -> is_digit c = true.

Definition signed (neg : bool) (z : Z) : Z := if neg then - z else z.

(** [num_text v t]: the text t is a number denoting v. Plain integers are exact.
    Decimals are correctly rounded. With an exponent, the mantissa is converted
    first and then multiplied by the power of ten in floating point. *)
Inductive num_text : json -> bytes -> Prop :=
| nt_int neg ds : ds <> [] -> all_digits ds -> is_long (signed neg (digits_val ds)) ->
    num_text (JInt (signed neg (digits_val ds))) (sign_str neg ++ ds)
| nt_dec neg ip fp x : ip <> [] -> all_digits ip -> all_digits fp ->
    strtod_val neg (digits_val (ip ++ fp)) (- Z.of_nat (List.length fp)) = Ok x ->
    num_text (JFlt x) (sign_str neg ++ ip ++ "."%char :: fp)
| nt_int_exp neg ds E eneg es : ds <> [] -> all_digits ds ->
    is_long (signed neg (digits_val ds)) ->
    E = "e"%char \/ E = "E"%char -> es <> [] -> all_digits es ->
    is_long (signed eneg (digits_val es)) ->
    num_text (JFlt (dbl_mul (dbl_of_int (signed neg (digits_val ds)))
                            (dbl_pow10 (signed eneg (digits_val es)))))
             (sign_str neg ++ ds ++ E :: sign_str eneg ++ es)
| nt_dec_exp neg ip fp x E eneg es : ip <> [] -> all_digits ip -> all_digits fp ->
    strtod_val neg (digits_val (ip ++ fp)) (- Z.of_nat (List.length fp)) = Ok x ->
    E = "e"%char \/ E = "E"%char -> es <> [] -> all_digits es ->
    is_long (signed eneg (digits_val es)) ->
    num_text (JFlt (dbl_mul x (dbl_pow10 (signed eneg (digits_val es)))))
             (sign_str neg ++ ip ++ "."%char :: fp ++ E :: sign_str eneg ++ es).

Definition is_number (j : json) : bool :=
  match j with JInt _ | JFlt _ => true | _ => false end.

(** White space or comments after the value [v]; a number must not be directly
    followed by a comment. *)
Definition ws_after (v : json) (w : bytes) : Prop :=
  ws w /\ (is_number v = true -> spaced w).

(** The object with the given members in text order: later members replace
    earlier ones with the same key. MARLEY stores keys in escaped form. *)
Definition mk_obj (ms : list (bytes * json)) : json :=
  JObj (fold_left (fun acc kv => obj_set (escape (fst kv)) (snd kv) acc) ms []).

(** [key_text k t w]: the text t followed by the white space w denotes key k. *)
Inductive key_text : bytes -> bytes -> bytes -> Prop :=
| kt_quoted k t w : str_text k t -> ws w -> key_text k (dquote :: t ++ [dquote]) w
| kt_word c k w : (forall d, In d (c :: k) -> d <> ":"%char /\ is_space d = false) ->
    c <> "}"%char -> c <> dquote -> c <> "/"%char -> ws w -> spaced w ->
    key_text (c :: k) (c :: k) w.

(** [denotes v t]: the text t denotes the JSON value v. *)
Inductive denotes : json -> bytes -> Prop :=
| dn_null : denotes JNull (b "null")
| dn_true : denotes (JBool true) (b "true")
| dn_false : denotes (JBool false) (b "false")
| dn_num v t : num_text v t -> denotes v t
| dn_str v t : str_text v t -> denotes (JStr v) (dquote :: t ++ [dquote])
| dn_arr l t : arr_text l t -> denotes (JArr l) ("["%char :: t)
| dn_obj ms t : obj_text ms t -> denotes (mk_obj ms) ("{"%char :: t)
(** The text after '[', through ']'. A trailing comma is allowed. *)
with arr_text : list json -> bytes -> Prop :=
| ar_end w : ws w -> arr_text [] (w ++ ["]"%char])
| ar_last w v t w' : ws w -> denotes v t -> ws_after v w' ->
    arr_text [v] (w ++ t ++ w' ++ ["]"%char])
| ar_more w v t w' l s : ws w -> denotes v t -> ws_after v w' -> arr_text l s ->
    arr_text (v :: l) (w ++ t ++ w' ++ ","%char :: s)
(** The text after '{', through '}'. A trailing comma is allowed. *)
with obj_text : list (bytes * json) -> bytes -> Prop :=
| ob_end w : ws w -> obj_text [] (w ++ ["}"%char])
| ob_last w k kt w1 w2 v t w' : ws w -> key_text k kt w1 -> ws w2 -> denotes v t ->
    ws_after v w' ->
    obj_text [(k, v)] (w ++ kt ++ w1 ++ ":"%char :: w2 ++ t ++ w' ++ ["}"%char])
| ob_more w k kt w1 w2 v t w' ms s : ws w -> key_text k kt w1 -> ws w2 -> denotes v t ->
    ws_after v w' -> obj_text ms s ->
    obj_text ((k, v) :: ms) (w ++ kt ++ w1 ++ ":"%char :: w2 ++ t ++ w' ++ ","%char :: s).

(** A document: an object, possibly surrounded by white space and comments. *)
Definition document (v : json) (s : bytes) : Prop :=
  exists w t rest, ws w /\ denotes v ("{"%char :: t) /\ s = w ++ "{"%char :: t ++ rest.
