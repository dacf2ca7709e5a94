(** Vocabulary for C12: events as plain values, and what ownership means. *)
From Coq Require Import List ZArith Bool Permutation.
From Coq Require Import Floats.SpecFloat.
From Verif Require Import Base Pdg Event EventHeap.
Import ListNotations.

(** Which variables an operation declares, needs and ends. *)
Definition in_scope (live : list nat) (o : op) : Prop :=
  match o with
  | New v _ | NewFrom v _ _ _ _ _ _ _ => ~ In v live
  | CopyCtor v w | MoveCtor v w => ~ In v live /\ In w live
  | CopyAssign v w | MoveAssign v w | AddFinalOf v w _ => In v live /\ In w live
  | AddInitial v _ | AddFinal v _ | SetInitial v _ _ | SetFinal v _ _ | Clear v | Destroy v => In v live
  end.
Definition after (live : list nat) (o : op) : list nat :=
  match o with
  | New v _ | NewFrom v _ _ _ _ _ _ _ | CopyCtor v _ | MoveCtor v _ => v :: live
  | Destroy v => filter (fun x => negb (Nat.eqb v x)) live
  | _ => live
  end.

(** A history obeying C++ scoping. *)
Fixpoint scoped (live : list nat) (l : list op) : Prop :=
  match l with
  | [] => True
  | o :: r => in_scope live o /\ scoped (after live o) r
  end.
Definition alive (l : list op) : list nat := fold_left after l [].

(** Events as values: an environment gives each variable its event. Operations
    that copy or move simply give the new variable the value; a moved-from event
    has no particles; an event assigned to itself loses its particles. *)
Definition env := nat -> option event.
Definition upd (v : nat) (x : option event) (e : env) : env := fun k => if Nat.eqb k v then x else e k.
Definition strip (ev : event) : event := mke [] [] (e_Ex ev) (e_twoJ ev) (e_par ev).

Fixpoint replace_nth (i : nat) (p : particle) (l : list particle) : list particle :=
  match l, i with
  | [], _ => []
  | _ :: r, O => p :: r
  | x :: r, S i => x :: replace_nth i p r
  end.

Definition vstep (o : op) (e : env) : env :=
  match o with
  | New v Ex => upd v (Some (mke [default_particle; default_particle] [default_particle; default_particle] Ex 0%Z true)) e
  | NewFrom v a b c d Ex twoJ par => upd v (Some (mke [a; b] [c; d] Ex twoJ par)) e
  | CopyCtor v w => upd v (e w) e
  | MoveCtor v w =>
      upd v (e w) (upd w (option_map (fun ev => mke [] [] dbl_zero (e_twoJ ev) (e_par ev)) (e w)) e)
  | CopyAssign v w => if Nat.eqb v w then upd v (option_map strip (e v)) e else upd v (e w) e
  | MoveAssign v w =>
      if Nat.eqb v w then upd v (Some empty_event) e else upd w (Some empty_event) (upd v (e w) e)
  | AddInitial v p =>
      upd v (option_map (fun ev => mke (e_init ev ++ [p]) (e_fin ev) (e_Ex ev) (e_twoJ ev) (e_par ev)) (e v)) e
  | AddFinal v p =>
      upd v (option_map (fun ev => mke (e_init ev) (e_fin ev ++ [p]) (e_Ex ev) (e_twoJ ev) (e_par ev)) (e v)) e
  | AddFinalOf v w i =>
      match e w with
      | Some ew =>
          match nth_error (e_fin ew) i with
          | Some p =>
              upd v (option_map (fun ev => mke (e_init ev) (e_fin ev ++ [p]) (e_Ex ev) (e_twoJ ev) (e_par ev)) (e v)) e
          | None => e
          end
      | None => e
      end
  | SetInitial v i p =>
      upd v (option_map (fun ev => mke (replace_nth i p (e_init ev)) (e_fin ev) (e_Ex ev) (e_twoJ ev) (e_par ev)) (e v)) e
  | SetFinal v i p =>
      upd v (option_map (fun ev => mke (e_init ev) (replace_nth i p (e_fin ev)) (e_Ex ev) (e_twoJ ev) (e_par ev)) (e v)) e
  | Clear v => upd v (Some empty_event) e
  | Destroy v => upd v None e
  end.
Definition values (l : list op) (e : env) : env := fold_left (fun e o => vstep o e) l e.

(** The event an object stands for, read through its pointers. *)
Fixpoint read_all_ptrs (l : list addr) (h : heap) : option (list particle) :=
  match l with
  | [] => Some []
  | a :: r =>
      match get a h, read_all_ptrs r h with
      | Some p, Some ps => Some (p :: ps)
      | _, _ => None
      end
  end.
Definition value (v : nat) (w : world) : option event :=
  match get v (snd w) with
  | None => None
  | Some o =>
      match read_all_ptrs (o_init o) (fst w), read_all_ptrs (o_fin o) (fst w) with
      | Some i, Some f => Some (mke i f (o_Ex o) (o_twoJ o) (o_par o))
      | _, _ => None
      end
  end.

(** The pointers held by an object, and by all objects in scope. *)
Definition held (o : obj) : list addr := o_init o ++ o_fin o.
Definition all_held (s : vars) : list addr := flat_map (fun vo => held (snd vo)) s.

(** Every allocated particle is held by exactly one event in scope, once, and
    every pointer held is to an allocated particle. *)
Definition owned (w : world) : Prop :=
  NoDup (map fst (snd w)) /\ NoDup (all_held (snd w)) /\
  forall a, In a (map fst (fst w)) <-> In a (all_held (snd w)).

(** The variables an operation can change. *)
Definition touches (o : op) (v : nat) : Prop :=
  match o with
  | New x _ | NewFrom x _ _ _ _ _ _ _ | CopyCtor x _ | CopyAssign x _ | AddInitial x _ | AddFinal x _
  | AddFinalOf x _ _ | SetInitial x _ _ | SetFinal x _ _ | Clear x | Destroy x => x = v
  | MoveCtor x y | MoveAssign x y => x = v \/ y = v
  end.
