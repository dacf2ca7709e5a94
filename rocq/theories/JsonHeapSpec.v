(** JSON values as plain trees: what programs that use them are meant to do. Nothing here
    speaks of memory. *)
From Coq Require Import List Ascii String ZArith Bool PeanoNat.
From Coq Require Import Floats.SpecFloat.
From Verif Require Import Base Json JsonHeap.
Import ListNotations.

Definition members (j : json) : list (bytes * json) := match j with JObj l => l | _ => [] end.
Definition items (j : json) : list json := match j with JArr l => l | _ => [] end.
Definition scalar_value (c : scalar) : json := match c with SBool v => JBool v | SInt z => JInt z | SFlt x => JFlt x | SStr s => JStr s end.

(** The element a chain of operator[] leads to: null where there is none. *)
Fixpoint reach (p : list step) (j : json) : json :=
  match p with
  | [] => j
  | Key k :: p' => reach p' (match obj_get k (members j) with Some e => e | None => JNull end)
  | Idx i :: p' => reach p' (nth (Z.to_nat i) (items j) JNull)
  end.
(** The tree with that element replaced: what is not an object (an array) on the way becomes
    one, missing keys are added, and arrays are filled up with null. *)
Fixpoint update (p : list step) (f : json -> json) (j : json) : json :=
  match p with
  | [] => f j
  | Key k :: p' => JObj (obj_set k (update p' f (reach [Key k] j)) (members j))
  | Idx i :: p' =>
      let n := Z.to_nat i in
      let l := items j ++ repeat JNull (S n - List.length (items j)) in
      JArr (firstn n l ++ update p' f (reach [Idx i] j) :: skipn (S n) l)
  end.
(** A chain of the const at. *)
Fixpoint find (p : list step) (j : json) : res json :=
  match p with
  | [] => Ok j
  | Key k :: p' => match j with JObj l => match obj_get k l with Some e => find p' e | None => Er StdRange end | _ => Er Undefined end
  | Idx i :: p' => match j with JArr l => match nth_error l (Z.to_nat i) with Some e => find p' e | None => Er StdRange end | _ => Er Undefined end
  end.

(** The variables in scope, each with a tree of its own. *)
Definition trees := nat -> option json.
Definition with_tree (x : nat) (j : option json) (e : trees) : trees := fun y => if Nat.eqb x y then j else e y.
Definition var (x : nat) (e : trees) : res json := match e x with Some j => Ok j | None => Er StdOther end.
Definition read_at (s : place) (e : trees) : res json := do j <- var (fst s) e; find (snd s) j.
Definition set_at (d : place) (f : json -> json) (e : trees) : res trees := do j <- var (fst d) e; Ok (with_tree (fst d) (Some (update (snd d) f j)) e).
Definition new_var (x : nat) (j : json) (e : trees) : res trees := match e x with Some _ => Er StdOther | None => Ok (with_tree x (Some j) e) end.

Definition effect_of (c : stmt) (e : trees) : res trees :=
  match c with
  | Declare x => new_var x JNull e
  | Assign d v => set_at d (fun _ => scalar_value v) e
  | Append d s => if Nat.eqb (fst d) (fst s) then Er StdOther else do v <- read_at s e; set_at d (fun j => JArr (items j ++ [v])) e
  | Copy d s => if Nat.eqb (fst d) (fst s) then Er StdOther else do v <- read_at s e; set_at d (fun _ => v) e
  | Move d s => if Nat.eqb (fst d) (fst s) then Er StdOther else do j <- var (fst s) e; do e1 <- set_at s (fun _ => JNull) e; set_at d (fun _ => reach (snd s) j) e1
  | CopyNew x s => do v <- read_at s e; new_var x v e
  | MoveNew x s => do j <- var (fst s) e; do e1 <- set_at s (fun _ => JNull) e; new_var x (reach (snd s) j) e1
  | SelfCopy d => set_at d (fun j => j) e
  | SelfMove d => set_at d (fun _ => JNull) e
  | Touch d => set_at d (fun j => j) e
  | Destroy x => do _ <- var x e; Ok (with_tree x None e)
  end.
Fixpoint effects (p : list stmt) (e : trees) : res trees :=
  match p with [] => Ok e | c :: r => do e1 <- effect_of c e; effects r e1 end.
Definition no_trees : trees := fun _ => None.

(** Indexes are unsigned numbers of 32 bits. The largest one is left out: see
    C72_largest_index_refuted. *)
Definition index_ok (s : step) : Prop := match s with Key _ => True | Idx i => (0 <= i < 2 ^ 32 - 1)%Z end.
Definition places (c : stmt) : list place :=
  match c with
  | Declare _ | Destroy _ => []
  | Assign d _ | SelfCopy d | SelfMove d | Touch d => [d]
  | Append d s | Copy d s | Move d s => [d; s]
  | CopyNew _ s | MoveNew _ s => [s]
  end.
Definition stmt_ok (c : stmt) : Prop := Forall (fun d => Forall index_ok (snd d)) (places c).

(** What is stored in memory: the tree that a slot stands for. *)
Inductive means (h : heap) : slot -> json -> Prop :=
| means_null : means h VNull JNull
| means_bool v : means h (VBool v) (JBool v)
| means_int z : means h (VInt z) (JInt z)
| means_flt x : means h (VFlt x) (JFlt x)
| means_str l s : h_at h l = Some (NStr s) -> means h (VStr l) (JStr s)
| means_arr l vs js : h_at h l = Some (NArr vs) -> Forall2 (means h) vs js -> means h (VArr l) (JArr js)
| means_obj l kvs js : h_at h l = Some (NObj kvs) -> map fst kvs = map fst js -> Forall2 (means h) (map snd kvs) (map snd js) -> means h (VObj l) (JObj js).

(** The variables in memory stand for the trees. *)
Definition stands_for (m : memory) (e : trees) : Prop :=
  forall x, match e x with
            | Some j => exists v, In (x, v) (m_vars m) /\ means (m_heap m) v j
            | None => forall v, ~ In (x, v) (m_vars m)
            end.

(** A value that owns no node, and programs in which copy and move assignment only overwrite
    such values. *)
Definition flat (j : json) : Prop := match j with JStr _ | JArr _ | JObj _ => False | _ => True end.
Definition tidy (c : stmt) (e : trees) : Prop :=
  match c with
  | Copy d _ | Move d _ | SelfCopy d | SelfMove d => forall j, e (fst d) = Some j -> flat (reach (snd d) j)
  | _ => True
  end.
Fixpoint all_tidy (p : list stmt) (e : trees) : Prop :=
  match p with
  | [] => True
  | c :: r => tidy c e /\ match effect_of c e with Ok e1 => all_tidy r e1 | Er _ => True end
  end.
