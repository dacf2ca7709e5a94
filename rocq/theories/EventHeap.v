(** Which event owns which particle: the memory side of Event (src/Event.cc 58-217).

    A program is a history of operations on event variables. Particles live on a
    heap; an event object holds two vectors of pointers. Simplifications: vectors
    of pointers are lists (the null pointers a vector holds between resize and the
    assignment of its elements are not represented), allocation always succeeds,
    and the particle data members are one value. *)
From Coq Require Import List ZArith Bool.
From Coq Require Import Floats.SpecFloat.
From Verif Require Import Base Pdg Event.
Import ListNotations.

Notation addr := nat.
Notation heap := (list (nat * particle)).

(** Event.hh 239-257, the data members. *)
Record obj := mko {
  o_init : list addr; o_fin : list addr; o_Ex : spec_float; o_twoJ : Z; o_par : bool
}.

(** Association lists, for the heap and for the variables in scope. *)
Fixpoint get {A} (k : nat) (l : list (nat * A)) : option A :=
  match l with
  | [] => None
  | (k', x) :: r => if Nat.eqb k k' then Some x else get k r
  end.
Fixpoint del {A} (k : nat) (l : list (nat * A)) : list (nat * A) :=
  match l with
  | [] => []
  | (k', x) :: r => if Nat.eqb k k' then del k r else (k', x) :: del k r
  end.
Definition put {A} (k : nat) (x : A) (l : list (nat * A)) : list (nat * A) := (k, x) :: del k l.

Notation vars := (list (nat * obj)).
Notation world := (list (nat * particle) * list (nat * obj))%type.

(** Reading through a dead pointer and deleting a dead pointer are undefined
    behaviour. *)
Definition deref (a : addr) (h : heap) : res particle :=
  match get a h with Some p => Ok p | None => Er Undefined end.
Definition delete (a : addr) (h : heap) : res heap :=
  match get a h with Some _ => Ok (del a h) | None => Er Undefined end.
Definition var (v : nat) (s : vars) : res obj :=
  match get v s with Some o => Ok o | None => Er Undefined end.

Section alloc.
(** The allocator: it may return any address not in use. *)
Variable alloc : heap -> addr.

(** new marley::Particle(p). *)
Definition new_particle (p : particle) (h : heap) : addr * heap :=
  let a := alloc h in (a, (a, p) :: h).

Fixpoint new_all (ps : list particle) (h : heap) : list addr * heap :=
  match ps with
  | [] => ([], h)
  | p :: r => let (a, h) := new_particle p h in let (l, h) := new_all r h in (a :: l, h)
  end.

(** The loops of Event.cc 86-93 and 128-134. *)
Fixpoint copy_all (l : list addr) (h : heap) : res (list addr * heap) :=
  match l with
  | [] => Ok ([], h)
  | a :: r =>
      do p <- deref a h;
      let (a', h) := new_particle p h in
      do (r', h) <- copy_all r h;
      Ok (a' :: r', h)
  end.

(** Event.cc 220-221, the loops of delete_particles. *)
Fixpoint delete_all (l : list addr) (h : heap) : res heap :=
  match l with
  | [] => Ok h
  | a :: r => do h <- delete a h; delete_all r h
  end.

(** Event.cc 219-224, delete_particles. *)
Definition delete_particles (v : nat) (w : world) : res world :=
  let (h, s) := w in
  do o <- var v s;
  do h <- delete_all (o_init o ++ o_fin o) h;
  Ok (h, put v (mko [] [] (o_Ex o) (o_twoJ o) (o_par o)) s).

(** The operations of a history. *)
Inductive op :=
| New (v : nat) (Ex : spec_float)
| NewFrom (v : nat) (a b c d : particle) (Ex : spec_float) (twoJ : Z) (par : bool)
| CopyCtor (v w : nat)
| MoveCtor (v w : nat)
| CopyAssign (v w : nat)
| MoveAssign (v w : nat)
| AddInitial (v : nat) (p : particle)
| AddFinal (v : nat) (p : particle)
| AddFinalOf (v w i : nat)
| SetInitial (v i : nat) (p : particle)
| SetFinal (v i : nat) (p : particle)
| Clear (v : nat)
| Destroy (v : nat).

(** Declaring a variable that is in scope is not a C++ program. *)
Definition undeclared (v : nat) (s : vars) : res unit :=
  match get v s with Some _ => Er Undefined | None => Ok tt end.

(** Event.cc 67-72. *)
Definition construct (v : nat) (ini fin : list particle) (Ex : spec_float) (twoJ : Z) (par : bool)
    (w : world) : res world :=
  let (h, s) := w in
  do _ <- undeclared v s;
  let (li, h) := new_all ini h in
  let (lf, h) := new_all fin h in
  Ok (h, put v (mko li lf Ex twoJ par) s).

(** Event.cc 80-94, copy constructor. *)
Definition copy_ctor (v o : nat) (w : world) : res world :=
  let (h, s) := w in
  do _ <- undeclared v s;
  do other <- var o s;
  do (li, h) <- copy_all (o_init other) h;
  do (lf, h) <- copy_all (o_fin other) h;
  Ok (h, put v (mko li lf (o_Ex other) (o_twoJ other) (o_par other)) s).

(** Event.cc 98-113, move constructor. *)
Definition move_ctor (v o : nat) (w : world) : res world :=
  let (h, s) := w in
  do _ <- undeclared v s;
  do other <- var o s;
  let s := put o (mko [] [] dbl_zero (o_twoJ other) (o_par other)) s in
  Ok (h, put v other s).

(** Event.cc 116-137, copy assignment. The other event is read again after the
    particles of this one have been deleted: they may be the same object. *)
Definition copy_assign (v o : nat) (w : world) : res world :=
  let (h, s) := w in
  do this <- var v s;
  do other <- var o s;
  let s := put v (mko (o_init this) (o_fin this) (o_Ex other) (o_twoJ other) (o_par other)) s in
  do (h, s) <- delete_particles v (h, s);
  do other <- var o s;
  do (li, h) <- copy_all (o_init other) h;
  do (lf, h) <- copy_all (o_fin other) h;
  do this <- var v s;
  Ok (h, put v (mko li lf (o_Ex this) (o_twoJ this) (o_par this)) s).

(** Event.cc 140-168, move assignment. *)
Definition move_assign (v o : nat) (w : world) : res world :=
  let (h, s) := w in
  do this <- var v s;
  do other <- var o s;
  let s := put v (mko (o_init this) (o_fin this) (o_Ex other) (o_twoJ other) (o_par other)) s in
  do other <- var o s;
  let s := put o (mko (o_init other) (o_fin other) dbl_zero 0%Z true) s in
  do (h, s) <- delete_particles v (h, s);
  do other <- var o s;
  do this <- var v s;
  let s := put v (mko (o_init other) (o_fin other) (o_Ex this) (o_twoJ this) (o_par this)) s in
  do other <- var o s;
  Ok (h, put o (mko [] [] (o_Ex other) (o_twoJ other) (o_par other)) s).

(** Event.cc 202-210, add_initial_particle and add_final_particle. *)
Definition add_initial (v : nat) (p : particle) (w : world) : res world :=
  let (h, s) := w in
  do o <- var v s;
  let (a, h) := new_particle p h in
  Ok (h, put v (mko (o_init o ++ [a]) (o_fin o) (o_Ex o) (o_twoJ o) (o_par o)) s).
Definition add_final (v : nat) (p : particle) (w : world) : res world :=
  let (h, s) := w in
  do o <- var v s;
  let (a, h) := new_particle p h in
  Ok (h, put v (mko (o_init o) (o_fin o ++ [a]) (o_Ex o) (o_twoJ o) (o_par o)) s).

(** Event.hh 276-305 and Event.cc 170-200: the accessors use [at], which throws
    std::out_of_range. *)
Definition at_ptr (i : nat) (l : list addr) : res addr :=
  match nth_error l i with Some a => Ok a | None => Er StdRange end.

(** v.add_final_particle( o.final_particle(i) ). *)
Definition add_final_of (v o i : nat) (w : world) : res world :=
  do _ <- var v (snd w);
  do other <- var o (snd w);
  do a <- at_ptr i (o_fin other);
  do p <- deref a (fst w);
  add_final v p w.

(** Assigning to a particle through projectile(), residue(), or the vectors. *)
Definition store (a : addr) (p : particle) (h : heap) : res heap :=
  do _ <- deref a h; Ok (put a p h).
Definition set_initial (v i : nat) (p : particle) (w : world) : res world :=
  do o <- var v (snd w);
  do a <- at_ptr i (o_init o);
  do h <- store a p (fst w);
  Ok (h, snd w).
Definition set_final (v i : nat) (p : particle) (w : world) : res world :=
  do o <- var v (snd w);
  do a <- at_ptr i (o_fin o);
  do h <- store a p (fst w);
  Ok (h, snd w).

(** Event.cc 212-217, clear. *)
Definition clear_event (v : nat) (w : world) : res world :=
  do w <- delete_particles v w;
  Ok (fst w, put v (mko [] [] dbl_zero 0%Z true) (snd w)).

(** Event.cc 75-77, the destructor, at the end of the variable's scope. *)
Definition destroy (v : nat) (w : world) : res world :=
  do w <- delete_particles v w;
  Ok (fst w, del v (snd w)).

Definition step (o : op) (w : world) : res world :=
  match o with
  | New v Ex =>
      construct v [default_particle; default_particle] [default_particle; default_particle] Ex 0%Z true w
  | NewFrom v a b c d Ex twoJ par => construct v [a; b] [c; d] Ex twoJ par w
  | CopyCtor v o => copy_ctor v o w
  | MoveCtor v o => move_ctor v o w
  | CopyAssign v o => copy_assign v o w
  | MoveAssign v o => move_assign v o w
  | AddInitial v p => add_initial v p w
  | AddFinal v p => add_final v p w
  | AddFinalOf v o i => add_final_of v o i w
  | SetInitial v i p => set_initial v i p w
  | SetFinal v i p => set_final v i p w
  | Clear v => clear_event v w
  | Destroy v => destroy v w
  end.

(** A history. An exception thrown by an accessor is caught; the operation had
    changed nothing. *)
Fixpoint history (l : list op) (w : world) : res world :=
  match l with
  | [] => Ok w
  | o :: r =>
      match step o w with
      | Ok w' => history r w'
      | Er StdRange => history r w
      | Er e => Er e
      end
  end.
End alloc.
