(** JSON values in memory: JSON.hh 61-341 and 576-613. Elsewhere in the model a JSON value is
    a tree; here it is a slot (the members data_ and type_) that owns nodes on the heap.
    Simplifications: a JSON& that results from a chain of operator[] is used at once and not
    kept; an operand that throws does so before the other operand is evaluated; temporaries
    that are copied and destroyed at once are left out. *)
From Coq Require Import List Ascii String ZArith Bool.
From Coq Require Import Floats.SpecFloat.
From Verif Require Import Base Json.
Import ListNotations.
Local Open Scope Z_scope.

Definition loc := nat.

(** JSON.hh 63-76 and 79-87: the union with its tag. *)
Inductive slot := VNull | VBool (v : bool) | VInt (z : Z) | VFlt (x : spec_float) | VStr (l : loc) | VArr (l : loc) | VObj (l : loc).
(** What the pointers lead to: std::string, std::deque<JSON> and std::map<std::string, JSON>,
    the latter as a list in the order of its keys. *)
Inductive node := NStr (s : bytes) | NArr (l : list slot) | NObj (l : list (bytes * slot)).

(** The heap: the next new address, and what is allocated. *)
Record heap := mkheap { h_next : loc; h_at : loc -> option node }.
Definition put_node (l : loc) (n : option node) (h : heap) : heap := mkheap (h_next h) (fun l' => if Nat.eqb l l' then n else h_at h l').
Definition alloc (n : node) (h : heap) : heap * loc := (mkheap (S (h_next h)) (fun l' => if Nat.eqb (h_next h) l' then Some n else h_at h l'), h_next h).

(** std::map: look up, and insert or replace. *)
Fixpoint kget {A} (k : bytes) (l : list (bytes * A)) : option A :=
  match l with
  | [] => None
  | (k', v) :: r => if bytes_eqb k k' then Some v else kget k r
  end.
Fixpoint kset {A} (k : bytes) (v : A) (l : list (bytes * A)) : list (bytes * A) :=
  match l with
  | [] => [(k, v)]
  | (k', v') :: r =>
      if bytes_eqb k k' then (k, v) :: r
      else if bytes_ltb k k' then (k, v) :: l
      else (k', v') :: kset k v r
  end.
Fixpoint lset {A} (n : nat) (v : A) (l : list A) : list A :=
  match l, n with
  | [], _ => []
  | _ :: r, O => v :: r
  | x :: r, S n' => x :: lset n' v r
  end.

(** ** Copying and destroying *)

(** A list of elements, one after the other. *)
Fixpoint copy_each {A} (copy : heap -> A -> res (heap * A)) (h : heap) (l : list A) : res (heap * list A) :=
  match l with
  | [] => Ok (h, [])
  | v :: r => do (h1, v') <- copy h v; do (h2, r') <- copy_each copy h1 r; Ok (h2, v' :: r')
  end.
Definition copy_snd (copy : heap -> slot -> res (heap * slot)) (h : heap) (kv : bytes * slot) : res (heap * (bytes * slot)) :=
  do (h1, v') <- copy h (snd kv); Ok (h1, (fst kv, v')).

(** JSON.hh 150-168, the copy constructor. The union member read must be the one that the
    type tells, and point to a node. *)
Fixpoint copy (fuel : nat) (h : heap) (v : slot) : res (heap * slot) :=
  match fuel with
  | O => Er NoFuel
  | S f =>
      match v with
      | VStr l => match h_at h l with Some (NStr s) => let '(h1, l') := alloc (NStr s) h in Ok (h1, VStr l') | _ => Er Undefined end
      | VArr l => match h_at h l with Some (NArr vs) => do (h1, vs') <- copy_each (copy f) h vs; let '(h2, l') := alloc (NArr vs') h1 in Ok (h2, VArr l') | _ => Er Undefined end
      | VObj l => match h_at h l with Some (NObj kvs) => do (h1, kvs') <- copy_each (copy_snd (copy f)) h kvs; let '(h2, l') := alloc (NObj kvs') h1 in Ok (h2, VObj l') | _ => Er Undefined end
      | _ => Ok (h, v)
      end
  end.

Fixpoint destroy_each {A} (destroy : heap -> A -> res heap) (h : heap) (l : list A) : res heap :=
  match l with
  | [] => Ok h
  | v :: r => do h1 <- destroy h v; destroy_each destroy h1 r
  end.

(** JSON.hh 190-203, the destructor. Deleting what is not allocated is undefined. *)
Fixpoint destroy (fuel : nat) (h : heap) (v : slot) : res heap :=
  match fuel with
  | O => Er NoFuel
  | S f =>
      match v with
      | VStr l => match h_at h l with Some (NStr _) => Ok (put_node l None h) | _ => Er Undefined end
      | VArr l => match h_at h l with Some (NArr vs) => do h1 <- destroy_each (destroy f) h vs; Ok (put_node l None h1) | _ => Er Undefined end
      | VObj l => match h_at h l with Some (NObj kvs) => do h1 <- destroy_each (fun h kv => destroy f h (snd kv)) h kvs; Ok (put_node l None h1) | _ => Er Undefined end
      | _ => Ok h
      end
  end.

(** Enough for every acyclic value. *)
Definition enough (h : heap) : nat := S (h_next h).

(** ** Changing the type *)

(** JSON.hh 79-87. *)
Inductive dtype := TNull | TBool | TInt | TFlt | TStr | TArr | TObj.
Definition type_of (v : slot) : dtype :=
  match v with VNull => TNull | VBool _ => TBool | VInt _ => TInt | VFlt _ => TFlt | VStr _ => TStr | VArr _ => TArr | VObj _ => TObj end.
Definition dtype_eqb (a c : dtype) : bool :=
  match a, c with TNull, TNull | TBool, TBool | TInt, TInt | TFlt, TFlt | TStr, TStr | TArr, TArr | TObj, TObj => true | _, _ => false end.

(** JSON.hh 576-613, set_type. *)
Definition set_type (t : dtype) (h : heap) (v : slot) : res (heap * slot) :=
  if dtype_eqb t (type_of v) then Ok (h, v)
  else
    do h1 <- destroy (enough h) h v;
    match t with
    | TNull => Ok (h1, VNull)
    | TObj => let '(h2, l) := alloc (NObj []) h1 in Ok (h2, VObj l)
    | TArr => let '(h2, l) := alloc (NArr []) h1 in Ok (h2, VArr l)
    | TStr => let '(h2, l) := alloc (NStr []) h1 in Ok (h2, VStr l)
    | TFlt => Ok (h1, VFlt (S754_zero false))
    | TInt => Ok (h1, VInt 0)
    | TBool => Ok (h1, VBool false)
    end.

(** ** Reaching elements *)

Inductive step := Key (k : bytes) | Idx (i : Z).

(** JSON.hh 296-311: a chain of operator[] (or of the non-const at), then [f] on the slot it
    leads to, which gives the slot's new content and maybe another slot. The index has 32
    bits. *)
Fixpoint modify (p : list step) (f : heap -> slot -> res (heap * slot * option slot)) (h : heap) (v : slot) : res (heap * slot * option slot) :=
  match p with
  | [] => f h v
  | Key k :: p' =>
      do (h1, v1) <- set_type TObj h v;
      match v1 with
      | VObj l =>
          match h_at h1 l with
          | Some (NObj kvs) =>
              let kvs1 := match kget k kvs with Some _ => kvs | None => kset k VNull kvs end in
              match kget k kvs1 with
              | Some e =>
                  do (h2, e', o) <- modify p' f (put_node l (Some (NObj kvs1)) h1) e;
                  match h_at h2 l with
                  | Some (NObj kvs2) => Ok (put_node l (Some (NObj (kset k e' kvs2))) h2, v1, o)
                  | _ => Er Undefined
                  end
              | None => Er Undefined
              end
          | _ => Er Undefined
          end
      | _ => Er Undefined
      end
  | Idx i :: p' =>
      do (h1, v1) <- set_type TArr h v;
      match v1 with
      | VArr l =>
          match h_at h1 l with
          | Some (NArr vs) =>
              do (h2, vs1) <-
                (if Z.of_nat (List.length vs) <=? i then
                   let n := (i + 1) mod 2 ^ 32 in
                   if Z.of_nat (List.length vs) <=? n then Ok (h1, vs ++ repeat VNull (Z.to_nat n - List.length vs))
                   else do h2 <- destroy_each (destroy (enough h1)) h1 (skipn (Z.to_nat n) vs); Ok (h2, firstn (Z.to_nat n) vs)
                 else Ok (h1, vs));
              match nth_error vs1 (Z.to_nat i) with
              | Some e =>
                  do (h3, e', o) <- modify p' f (put_node l (Some (NArr vs1)) h2) e;
                  match h_at h3 l with
                  | Some (NArr vs3) => Ok (put_node l (Some (NArr (lset (Z.to_nat i) e' vs3))) h3, v1, o)
                  | _ => Er Undefined
                  end
              | None => Er Undefined
              end
          | _ => Er Undefined
          end
      | _ => Er Undefined
      end
  end.

(** JSON.hh 317-326: a chain of the const at, for a slot that is only read. *)
Fixpoint look (p : list step) (h : heap) (v : slot) : res slot :=
  match p with
  | [] => Ok v
  | Key k :: p' =>
      match v with
      | VObj l => match h_at h l with
                  | Some (NObj kvs) => match kget k kvs with Some e => look p' h e | None => Er StdRange end
                  | _ => Er Undefined
                  end
      | _ => Er Undefined
      end
  | Idx i :: p' =>
      match v with
      | VArr l => match h_at h l with
                  | Some (NArr vs) => match nth_error vs (Z.to_nat i) with Some e => look p' h e | None => Er StdRange end
                  | _ => Er Undefined
                  end
      | _ => Er Undefined
      end
  end.

(** ** Programs *)

(** Values given by the program. *)
Inductive scalar := SBool (v : bool) | SInt (z : Z) | SFlt (x : spec_float) | SStr (s : bytes).

(** JSON.hh 262-294, assignment of a scalar. *)
Definition assign_scalar (c : scalar) (h : heap) (v : slot) : res (heap * slot * option slot) :=
  match c with
  | SBool x => do (h1, _) <- set_type TBool h v; Ok (h1, VBool x, None)
  | SInt z => do (h1, _) <- set_type TInt h v; Ok (h1, VInt z, None)
  | SFlt x => do (h1, _) <- set_type TFlt h v; Ok (h1, VFlt x, None)
  | SStr s =>
      do (h1, v1) <- set_type TStr h v;
      match v1 with
      | VStr l => match h_at h1 l with Some (NStr _) => Ok (put_node l (Some (NStr s)) h1, v1, None) | _ => Er Undefined end
      | _ => Er Undefined
      end
  end.

(** JSON.hh 253-256, append, of a copy [c] made before. *)
Definition append (c : slot) (h : heap) (v : slot) : res (heap * slot * option slot) :=
  do (h1, v1) <- set_type TArr h v;
  match v1 with
  | VArr l => match h_at h1 l with Some (NArr vs) => Ok (put_node l (Some (NArr (vs ++ [c]))) h1, v1, None) | _ => Er Undefined end
  | _ => Er Undefined
  end.

(** JSON.hh 139-148 and 170-188: move and copy assignment store new content in the slot
    without deleting the old; and what a move leaves behind. *)
Definition store (c : slot) (h : heap) (v : slot) : res (heap * slot * option slot) := Ok (h, c, None).
Definition take (h : heap) (v : slot) : res (heap * slot * option slot) := Ok (h, VNull, Some v).

(** Variables by number, and elements of them. *)
Definition place := (nat * list step)%type.
Inductive stmt :=
| Declare (x : nat)                    (* JSON x; *)
| Assign (d : place) (c : scalar)      (* d = c; *)
| Append (d s : place)                 (* d.append(s); *)
| Copy (d s : place)                   (* d = s; *)
| Move (d s : place)                   (* d = std::move(s); *)
| CopyNew (x : nat) (s : place)        (* JSON x(s); *)
| MoveNew (x : nat) (s : place)        (* JSON x(std::move(s)); *)
| SelfCopy (d : place)                 (* d = d; *)
| SelfMove (d : place)                 (* d = std::move(d); *)
| Touch (d : place)                    (* d; *)
| Destroy (x : nat).                   (* the end of the life of x *)

Record memory := mkmem { m_heap : heap; m_vars : list (nat * slot) }.
Fixpoint vget {A} (x : nat) (l : list (nat * A)) : option A :=
  match l with [] => None | (y, v) :: r => if Nat.eqb x y then Some v else vget x r end.
Fixpoint vset {A} (x : nat) (v : A) (l : list (nat * A)) : list (nat * A) :=
  match l with [] => [] | (y, u) :: r => if Nat.eqb x y then (y, v) :: r else (y, u) :: vset x v r end.
Fixpoint vdel {A} (x : nat) (l : list (nat * A)) : list (nat * A) :=
  match l with [] => [] | (y, u) :: r => if Nat.eqb x y then r else (y, u) :: vdel x r end.

(** A statement that uses a variable that is not in scope is no program. *)
Definition on_place (d : place) (f : heap -> slot -> res (heap * slot * option slot)) (m : memory) : res (memory * option slot) :=
  match vget (fst d) (m_vars m) with
  | Some v => do (h, v', o) <- modify (snd d) f (m_heap m) v; Ok (mkmem h (vset (fst d) v' (m_vars m)), o)
  | None => Er StdOther
  end.
Definition copy_of (s : place) (m : memory) : res (memory * slot) :=
  match vget (fst s) (m_vars m) with
  | Some v => do e <- look (snd s) (m_heap m) v; do (h, c) <- copy (enough (m_heap m)) (m_heap m) e; Ok (mkmem h (m_vars m), c)
  | None => Er StdOther
  end.
Definition declare (x : nat) (v : slot) (m : memory) : res memory :=
  match vget x (m_vars m) with Some _ => Er StdOther | None => Ok (mkmem (m_heap m) ((x, v) :: m_vars m)) end.
Definition moved_from (s : place) (m : memory) : res (memory * slot) :=
  do (m1, o) <- on_place s take m; match o with Some c => Ok (m1, c) | None => Er StdOther end.

(** JSON.hh 170-188 with the slot itself as operand: its content is copied, and the copy
    stored. *)
Definition self_copy (h : heap) (v : slot) : res (heap * slot * option slot) := do (h1, c) <- copy (enough h) h v; Ok (h1, c, None).
(** JSON.hh 142-148 with the slot itself as operand: data_ and type_ are kept, then reset. *)
Definition self_move (h : heap) (v : slot) : res (heap * slot * option slot) := Ok (h, VNull, None).

(** Statements between different parts of one variable are left out (StdOther), except a
    part and itself. *)
Definition exec (c : stmt) (m : memory) : res memory :=
  match c with
  | Declare x => declare x VNull m
  | Assign d c => do (m1, _) <- on_place d (assign_scalar c) m; Ok m1
  | Append d s => if Nat.eqb (fst d) (fst s) then Er StdOther else do (m1, c) <- copy_of s m; do (m2, _) <- on_place d (append c) m1; Ok m2
  | Copy d s => if Nat.eqb (fst d) (fst s) then Er StdOther else do (m1, c) <- copy_of s m; do (m2, _) <- on_place d (store c) m1; Ok m2
  | Move d s => if Nat.eqb (fst d) (fst s) then Er StdOther else do (m1, c) <- moved_from s m; do (m2, _) <- on_place d (store c) m1; Ok m2
  | CopyNew x s => do (m1, c) <- copy_of s m; declare x c m1
  | MoveNew x s => do (m1, c) <- moved_from s m; declare x c m1
  | SelfCopy d => do (m1, _) <- on_place d self_copy m; Ok m1
  | SelfMove d => do (m1, _) <- on_place d self_move m; Ok m1
  | Touch d => do (m1, _) <- on_place d (fun h v => Ok (h, v, None)) m; Ok m1
  | Destroy x =>
      match vget x (m_vars m) with
      | Some v => do h <- destroy (enough (m_heap m)) (m_heap m) v; Ok (mkmem h (vdel x (m_vars m)))
      | None => Er StdOther
      end
  end.
Fixpoint run (p : list stmt) (m : memory) : res memory :=
  match p with [] => Ok m | c :: r => do m1 <- exec c m; run r m1 end.
Definition start : memory := mkmem (mkheap 0%nat (fun _ => None)) [].
