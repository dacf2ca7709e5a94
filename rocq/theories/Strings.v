(** String helpers (include/marley/marley_utils.hh 238-370). *)
From Coq Require Import List Ascii String ZArith Bool Lia.
From Verif Require Import Base.
Import ListNotations.

(** marley_utils.hh 241, the default delimiters of the trimming functions. *)
Definition whitespace : bytes := [" "%char; chr 12; chr 10; chr 13; chr 9; chr 11].

(** Membership in a set of delimiters, as find_first_not_of tests it. *)
Definition among (d : bytes) (c : ascii) : bool := existsb (ceq c) d.

(** marley_utils.hh 310-315 and 338-349, trim_left_copy and trim_left_inplace:
    everything from the first character that is not a delimiter. *)
Fixpoint trim_left (d s : bytes) : bytes :=
  match s with
  | [] => []
  | c :: r => if among d c then trim_left d r else s
  end.

(** marley_utils.hh 303-308 and 325-336, trim_right_copy and trim_right_inplace:
    everything up to the last character that is not a delimiter. *)
Fixpoint trim_right (d s : bytes) : bytes :=
  match s with
  | [] => []
  | c :: r =>
      match trim_right d r with
      | [] => if among d c then [] else [c]
      | t => c :: t
      end
  end.

(** marley_utils.hh 317-321 and 351-355, trim_copy and trim_inplace. *)
Definition trim (d s : bytes) : bytes := trim_left d (trim_right d s).

(** marley_utils.hh 282-296, pad_left_inplace and pad_right_inplace. *)
Definition pad_left (s : bytes) (n : nat) (c : ascii) : bytes :=
  if Nat.ltb (List.length s) n then repeat c (n - List.length s) ++ s else s.
Definition pad_right (s : bytes) (n : nat) (c : ascii) : bytes :=
  if Nat.ltb (List.length s) n then s ++ repeat c (n - List.length s) else s.

(** std::getline(ss, token, delim): the characters up to the delimiter, which is
    removed, or up to the end; fails at the end of the stream. *)
Fixpoint until (d : ascii) (s : bytes) : bytes * option bytes :=
  match s with
  | [] => ([], None)
  | c :: r => if ceq c d then ([], Some r) else let (t, k) := until d r in (c :: t, k)
  end.
Definition getline (d : ascii) (s : bytes) : option (bytes * bytes) :=
  match s with
  | [] => None
  | _ => let (t, k) := until d s in Some (t, match k with Some r => r | None => [] end)
  end.

(** marley_utils.hh 360-370, split_string. *)
Fixpoint split_fuel (n : nat) (d : ascii) (s : bytes) : list bytes :=
  match n with
  | O => []
  | S n =>
      match getline d s with
      | None => []
      | Some (t, r) => t :: split_fuel n d r
      end
  end.
Definition split_string (d : ascii) (s : bytes) : list bytes := split_fuel (List.length s) d s.

(** std::tolower and std::toupper in the C locale. *)
Definition lower (c : ascii) : ascii :=
  let z := code c in (if (65 <=? z) && (z <=? 90) then chr (z + 32) else c)%Z.
Definition upper (c : ascii) : ascii :=
  let z := code c in (if (97 <=? z) && (z <=? 122) then chr (z - 32) else c)%Z.

(** marley_utils.hh 257-277, to_lowercase and to_uppercase_inplace. *)
Definition to_lowercase (s : bytes) : bytes := map lower s.
Definition to_uppercase (s : bytes) : bytes := map upper s.
