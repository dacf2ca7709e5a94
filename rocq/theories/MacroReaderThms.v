(** C89: reading event files in a macro. *)
From Coq Require Import List Ascii String ZArith Lia Bool.
From Coq Require Import Floats.SpecFloat.
From Verif Require Import Base Dbl Event Output MarSum MarSumThms Tools ToolsPrintThms EventThms MacroReader.
Import ListNotations.
Local Open Scope Z_scope.

(** ** Specification: every variable has a reader of its own *)

Definition readers := nat -> option lazy.
Definition assign (v : nat) (l : option lazy) (g : readers) : readers := fun w => if Nat.eqb w v then l else g w.
(** One operation, unless it is a copy or names a variable that does not exist (or, to make one, that does). *)
Definition own_step (fs : store) (g : readers) (op : mop) : option (readers * mout) :=
  match op with
  | MNew v name => match g v with None => Some (assign v (Some (LNew name)) g, ONone) | Some _ => None end
  | MRead v => match g v with Some l => Some (assign v (Some (snd (lread fs l))) g, ORead (fst (lread fs l))) | None => None end
  | MFlux v => match g v with Some l => Some (assign v (Some (snd (lflux fs l))) g, OFlux (fst (lflux fs l))) | None => None end
  | MDelete v => match g v with Some _ => Some (assign v None g, ONone) | None => None end
  | MCopy _ _ | MAssign _ _ => None
  end.
Fixpoint own_run (fs : store) (g : readers) (ops : list mop) : option (readers * list mout) :=
  match ops with
  | [] => Some (g, [])
  | op :: ops => match own_step fs g op with
      | None => None
      | Some (g', o) => match own_run fs g' ops with None => None | Some (g'', os) => Some (g'', o :: os) end
      end
  end.
Definition no_readers : readers := fun _ => None.
Definition copies (op : mop) : bool := match op with MCopy _ _ | MAssign _ _ => true | _ => false end.
(** Readers on the heap that were not freed. *)
Definition live (s : mstate) (p : nat) : Prop := exists l, nth_error (m_heap s) p = Some (Some l).

(** ** Variables and cells *)

Lemma get_cons v w p l : var_get v ((w, p) :: l) = if Nat.eqb w v then Some p else var_get v l.
Proof. unfold var_get. cbn [find fst]. destruct (Nat.eqb w v); reflexivity. Qed.
Lemma get_drop v w l : var_get v (var_drop w l) = if Nat.eqb w v then None else var_get v l.
Proof.
  induction l as [|[x p] l IH]; [destruct (Nat.eqb w v); reflexivity|]. cbn [var_drop filter fst]. fold (var_drop w l).
  destruct (Nat.eqb_spec x w) as [->|N]; cbn [negb].
  - rewrite IH, get_cons. destruct (Nat.eqb w v); reflexivity.
  - rewrite !get_cons, IH. destruct (Nat.eqb_spec x v) as [->|]; [|reflexivity]. destruct (Nat.eqb_spec w v); [congruence|reflexivity].
Qed.
Lemma set_cell_same p c : forall h x, nth_error h p = Some x -> nth_error (set_cell p c h) p = Some c.
Proof. induction p as [|p IH]; intros [|y h] x H; try discriminate H; [reflexivity|]. exact (IH h x H). Qed.
Lemma set_cell_other p q c : forall h, q <> p -> nth_error (set_cell p c h) q = nth_error h q.
Proof. revert q. induction p as [|p IH]; intros [|q] [|y h] H; try reflexivity; [lia|]. cbn [set_cell nth_error]. apply IH. lia. Qed.
Lemma set_cell_length p c : forall h, List.length (set_cell p c h) = List.length h.
Proof. induction p as [|p IH]; intros [|y h]; try reflexivity. cbn [set_cell List.length]. rewrite IH. reflexivity. Qed.

(** ** The invariant *)

Record inv (s : mstate) (g : readers) : Prop := mkinv {
  i_val : forall v, match var_get v (m_vars s) with Some p => exists l, nth_error (m_heap s) p = Some (Some l) /\ g v = Some l | None => g v = None end;
  i_inj : forall v w p, var_get v (m_vars s) = Some p -> var_get w (m_vars s) = Some p -> v = w;
  i_live : forall p, live s p -> exists v, var_get v (m_vars s) = Some p
}.

Lemma inv_var s g v l : inv s g -> g v = Some l -> exists p, var_get v (m_vars s) = Some p /\ nth_error (m_heap s) p = Some (Some l).
Proof. intros H G. pose proof (i_val s g H v) as I. destruct (var_get v (m_vars s)) as [p|]; [|congruence]. destruct I as (l' & E & E'). exists p. split; [reflexivity|congruence]. Qed.
Lemma inv_no s g v : inv s g -> g v = None -> var_get v (m_vars s) = None.
Proof. intros H G. pose proof (i_val s g H v) as I. destruct (var_get v (m_vars s)) as [p|]; [|reflexivity]. destruct I as (l' & _ & E'). congruence. Qed.

Lemma inv_set s g v p l l' : inv s g -> var_get v (m_vars s) = Some p -> nth_error (m_heap s) p = Some (Some l) ->
  inv (mkm (set_cell p (Some l') (m_heap s)) (m_vars s)) (assign v (Some l') g).
Proof.
  intros H V E. split; cbn [m_heap m_vars].
  - intros w. pose proof (i_val s g H w) as I. unfold assign. destruct (Nat.eqb_spec w v) as [->|N].
    + rewrite V. exists l'. split; [eapply set_cell_same; exact E|reflexivity].
    + destruct (var_get w (m_vars s)) as [q|] eqn:W; [|exact I]. destruct I as (k & K1 & K2). exists k. split; [|exact K2].
      rewrite set_cell_other; [exact K1|]. intros ->. apply N. exact (i_inj s g H w v p W V).
  - exact (i_inj s g H).
  - intros q (k & K). destruct (Nat.eq_dec q p) as [->|N]; [exists v; exact V|]. apply (i_live s g H). exists k. cbn [m_heap] in K. rewrite set_cell_other in K by exact N. exact K.
Qed.

Lemma step_refines fs s g op : inv s g -> copies op = false ->
  match own_step fs g op with
  | Some (g', o) => exists s', mstep fs s op = Ok (s', o) /\ inv s' g'
  | None => mstep fs s op = Er Undefined
  end.
Proof.
  intros H C. destruct op as [v name|v w|v w|v|v|v]; try discriminate C; cbn [own_step mstep].
  - destruct (g v) as [l|] eqn:G.
    + destruct (inv_var s g v l H G) as (p & V & _). rewrite V. reflexivity.
    + rewrite (inv_no s g v H G). eexists. split; [reflexivity|]. assert (F : forall p, p = List.length (m_heap s) -> nth_error (m_heap s) p = None) by (intros p ->; apply nth_error_None; lia).
      split; cbn [m_heap m_vars].
      * intros w. rewrite get_cons. unfold assign. rewrite (Nat.eqb_sym w v). pose proof (i_val s g H w) as I. destruct (Nat.eqb_spec v w) as [->|N].
        -- exists (LNew name). split; [|reflexivity]. rewrite nth_error_app2, Nat.sub_diag by lia. reflexivity.
        -- destruct (var_get w (m_vars s)) as [p|]; [|exact I]. destruct I as (l & L1 & L2). exists l. split; [|exact L2]. rewrite nth_error_app1; [exact L1|]. apply nth_error_Some. congruence.
      * assert (B : forall w p, var_get w (m_vars s) = Some p -> p <> List.length (m_heap s)).
        { intros w p W X. pose proof (i_val s g H w) as I. rewrite W in I. destruct I as (l & L & _). rewrite (F p X) in L. discriminate L. }
        intros x y p. rewrite !get_cons. destruct (Nat.eqb_spec v x) as [N1|N1], (Nat.eqb_spec v y) as [N2|N2]; intros A1 A2; [congruence| | |exact (i_inj s g H x y p A1 A2)].
        -- exfalso. apply (B y p A2). congruence.
        -- exfalso. apply (B x p A1). congruence.
      * intros p (l & L). cbn [m_heap] in L. destruct (Nat.eq_dec p (List.length (m_heap s))) as [->|N]; [exists v; rewrite get_cons, Nat.eqb_refl; reflexivity|].
        assert (Q : (p < List.length (m_heap s))%nat).
        { assert (X : (p < List.length (m_heap s ++ [Some (LNew name)]))%nat) by (apply nth_error_Some; congruence). rewrite app_length in X. cbn [List.length] in X. lia. }
        rewrite nth_error_app1 in L by exact Q. destruct (i_live s g H p (ex_intro _ l L)) as (w & W). exists w. rewrite get_cons.
        destruct (Nat.eqb_spec v w) as [->|]; [|exact W]. rewrite (inv_no s g w H G) in W. discriminate W.
  - destruct (g v) as [l|] eqn:G; [|rewrite (inv_no s g v H G); reflexivity]. destruct (inv_var s g v l H G) as (p & V & E). rewrite V, E. cbn [bind]. destruct (lread fs l) as [r l'] eqn:L. cbn [fst snd].
    eexists. split; [reflexivity|]. exact (inv_set s g v p l l' H V E).
  - destruct (g v) as [l|] eqn:G; [|rewrite (inv_no s g v H G); reflexivity]. destruct (inv_var s g v l H G) as (p & V & E). rewrite V, E. cbn [bind]. destruct (lflux fs l) as [r l'] eqn:L. cbn [fst snd].
    eexists. split; [reflexivity|]. exact (inv_set s g v p l l' H V E).
  - destruct (g v) as [l|] eqn:G; [|rewrite (inv_no s g v H G); reflexivity]. destruct (inv_var s g v l H G) as (p & V & E). rewrite V, E. cbn [bind]. eexists. split; [reflexivity|].
    split; cbn [m_heap m_vars].
    + intros w. rewrite get_drop. unfold assign. rewrite (Nat.eqb_sym w v). pose proof (i_val s g H w) as I. destruct (Nat.eqb_spec v w) as [->|N]; [reflexivity|].
      destruct (var_get w (m_vars s)) as [q|] eqn:W; [|exact I]. destruct I as (k & K1 & K2). exists k. split; [|exact K2]. rewrite set_cell_other; [exact K1|]. intros ->. apply N. exact (i_inj s g H v w p V W).
    + intros x y q. rewrite !get_drop. destruct (Nat.eqb v x); [discriminate|]. destruct (Nat.eqb v y); [discriminate|]. apply (i_inj s g H).
    + intros q (k & K). cbn [m_heap] in K. destruct (Nat.eq_dec q p) as [->|N]; [rewrite (set_cell_same p None _ _ E) in K; discriminate K|]. rewrite set_cell_other in K by exact N.
      destruct (i_live s g H q (ex_intro _ k K)) as (w & W). exists w. rewrite get_drop. destruct (Nat.eqb_spec v w) as [->|]; [|exact W]. congruence.
Qed.

(** ** Theorems *)

(** A macro that does not copy readers gets from each of them exactly what a reader of its own would give,
    whatever it does with the others. Nothing is undefined as long as the variables exist, and every reader
    on the heap belongs to a variable: when the variables are gone, all are freed. *)
Theorem C89_independent fs ops : forallb (fun op => negb (copies op)) ops = true ->
  match own_run fs no_readers ops with
  | Some (g, os) => exists s, mrun fs mempty ops = Ok (s, os) /\
      (forall p, live s p -> exists v, var_get v (m_vars s) = Some p /\ g v <> None) /\
      ((forall v, g v = None) -> forall p, ~ live s p)
  | None => mrun fs mempty ops = Er Undefined
  end.
Proof.
  intros HC. assert (G : forall ops s g, inv s g -> forallb (fun op => negb (copies op)) ops = true ->
    match own_run fs g ops with Some (g', os) => exists s', mrun fs s ops = Ok (s', os) /\ inv s' g' | None => mrun fs s ops = Er Undefined end).
  { clear. induction ops as [|op ops IH]; intros s g H C; cbn [own_run mrun]; [exists s; split; [reflexivity|exact H]|].
    cbn [forallb] in C. apply andb_prop in C as [C1 C2]. apply negb_true_iff in C1. pose proof (step_refines fs s g op H C1) as S.
    destruct (own_step fs g op) as [[g' o]|]; [|rewrite S; reflexivity]. destruct S as (s' & S & H'). rewrite S. cbn [bind]. specialize (IH s' g' H' C2).
    destruct (own_run fs g' ops) as [[g'' os]|]; [|rewrite IH; reflexivity]. destruct IH as (s'' & E & H''). rewrite E. cbn [bind]. exists s''. split; [reflexivity|exact H'']. }
  assert (I0 : inv mempty no_readers) by (split; [intros v; reflexivity|intros v w p H; discriminate H|intros p (l & L); destruct p; discriminate L]).
  specialize (G ops mempty no_readers I0 HC). destruct (own_run fs no_readers ops) as [[g os]|]; [|exact G]. destruct G as (s & E & H). exists s. split; [exact E|].
  assert (L : forall p, live s p -> exists v, var_get v (m_vars s) = Some p /\ g v <> None).
  { intros p P. destruct (i_live s g H p P) as (v & V). exists v. split; [exact V|]. pose proof (i_val s g H v) as I. rewrite V in I. destruct I as (l & _ & K). congruence. }
  split; [exact L|]. intros N p P. destruct (L p P) as (v & _ & K). apply K. apply N.
Qed.
Print Assumptions C89_independent.

(** Passing a reader by value is a copy: when both are gone, its memory was freed twice. While both
    exist they are one reader: what is read through one is missing from the other. *)
Theorem C89_copy_refuted fs name v w : v <> w ->
  mrun fs mempty [MNew v name; MCopy w v; MDelete w; MDelete v] = Er Undefined /\
  mrun fs mempty [MNew v name; MCopy w v; MDelete w; MRead v] = Er Undefined /\
  (forall ev ev' r r1 r2, ropen (fs name) = Ok r -> rnext r = Ok (true, ev, r1) -> rnext r1 = Ok (true, ev', r2) ->
    exists s, mrun fs mempty [MNew v name; MCopy w v; MRead w; MRead v] = Ok (s, [ONone; ONone; ORead (Ok (true, ev)); ORead (Ok (true, ev'))])).
Proof.
  intros N. assert (NE : Nat.eqb v w = false) by (apply Nat.eqb_neq; exact N). assert (NE' : Nat.eqb w v = false) by (apply Nat.eqb_neq; congruence).
  assert (B : forall ops, mrun fs mempty (MNew v name :: MCopy w v :: ops) = do (s'', os) <- mrun fs (mkm [Some (LNew name)] [(w, O); (v, O)]) ops; Ok (s'', ONone :: ONone :: os)).
  { intros ops. cbn [mrun mstep mempty m_vars m_heap var_get find option_map app List.length bind]. rewrite !get_cons, NE, Nat.eqb_refl. cbn [var_get find option_map bind].
    destruct (mrun fs _ ops) as [[s'' os]|]; reflexivity. }
  rewrite !B. split; [|split].
  - cbn [mrun mstep m_vars m_heap]. rewrite !get_cons, Nat.eqb_refl. cbn [nth_error bind set_cell m_vars m_heap]. rewrite get_drop, NE', get_cons, NE', get_cons, Nat.eqb_refl. reflexivity.
  - cbn [mrun mstep m_vars m_heap]. rewrite !get_cons, Nat.eqb_refl. cbn [nth_error bind set_cell m_vars m_heap]. rewrite get_drop, NE', get_cons, NE', get_cons, Nat.eqb_refl. reflexivity.
  - intros ev ev1 r r1 r2 O1 O2 O3. cbn [mrun mstep m_vars m_heap]. rewrite !get_cons, Nat.eqb_refl. cbn [nth_error bind]. unfold lread at 1. cbn [ensure]. rewrite O1, O2.
    cbn [bind m_vars m_heap set_cell]. rewrite !get_cons, NE', Nat.eqb_refl. cbn [nth_error bind]. unfold lread. cbn [ensure]. rewrite O3. cbn [bind]. eexists. reflexivity.
Qed.
Print Assumptions C89_copy_refuted.

(** Assigning a reader to another leaks the one it had. *)
Theorem C89_assign_refuted fs name name' v w : v <> w ->
  exists s, mrun fs mempty [MNew v name; MNew w name'; MAssign v w; MDelete v] = Ok (s, [ONone; ONone; ONone; ONone]) /\
    live s 0 /\ (forall x, var_get x (m_vars s) <> Some O).
Proof.
  intros N. assert (NE : Nat.eqb v w = false) by (apply Nat.eqb_neq; exact N). assert (NE' : Nat.eqb w v = false) by (apply Nat.eqb_neq; congruence).
  cbn [mrun mstep mempty m_vars m_heap var_get find option_map app List.length bind]. rewrite !get_cons, NE. cbn [var_get find option_map bind m_vars m_heap app List.length].
  rewrite !get_cons, NE', !Nat.eqb_refl. cbn [bind m_vars m_heap]. rewrite !get_cons, Nat.eqb_refl. cbn [nth_error bind set_cell m_heap m_vars].
  eexists. split; [reflexivity|]. split; [exists (LNew name); reflexivity|]. intros x. cbn [m_vars]. rewrite get_drop. destruct (Nat.eqb_spec v x) as [->|X]; [discriminate|].
  rewrite get_cons. destruct (Nat.eqb_spec v x); [congruence|]. rewrite get_drop. destruct (Nat.eqb v x); [discriminate|]. rewrite !get_cons. destruct (Nat.eqb w x); [discriminate|]. destruct (Nat.eqb_spec v x); [congruence|discriminate].
Qed.
Print Assumptions C89_assign_refuted.

(** The macro print_events prints what the program marprint prints for the file, ends as it does, and leaves no
    reader behind. *)
Theorem C89_print fuel fs name self : let (t, r) := print_events fuel fs name in
  t = fst (marprint fuel self [name] fs) /\
  match r with Ok s => snd (marprint fuel self [name] fs) = Ok 0 /\ (forall p, ~ live s p) | Er e => fuel = O \/ snd (marprint fuel self [name] fs) = Er e end.
Proof.
  unfold print_events. cbn [mstep mempty m_vars m_heap var_get find option_map app List.length].
  assert (L : forall f k r, let '(t, q) := print_events_loop f fs (mkm [Some (LOpen r)] [(O, O)]) k in
    t = fst (print_loop f r k) /\ match q with Ok s => (exists k', snd (print_loop f r k) = Ok k') /\ (exists l, s = mkm [Some l] [(O, O)]) | Er e => snd (print_loop f r k) = Er e end).
  { induction f as [|f IH]; intros k r; cbn [print_events_loop print_loop]; [split; reflexivity|].
    cbn [mstep m_vars m_heap var_get find fst Nat.eqb option_map snd nth_error bind]. unfold lread. cbn [ensure]. destruct (rnext r) as [[[ok ev] r']|e]; cbn [set_cell]; [|split; reflexivity].
    destruct ok; [|split; [reflexivity|]; split; eexists; reflexivity]. destruct (k =? 2 ^ 31 - 1); [split; reflexivity|]. specialize (IH (k + 1) r').
    destruct (print_events_loop f fs (mkm [Some (LOpen r')] [(O, O)]) (k + 1)) as [t q]. destruct (print_loop f r' (k + 1)) as [t' q']. cbn [fst snd] in *. destruct IH as [-> IH]. split; [reflexivity|exact IH]. }
  assert (F : let '(t, q) := print_events_loop fuel fs (mkm [Some (LNew name)] [(O, O)]) 0 in
    t = fst (print_files fuel fs [name] 0) /\ match q with Ok s => (exists k', snd (print_files fuel fs [name] 0) = Ok k') /\ (exists l, s = mkm [Some l] [(O, O)]) | Er e => fuel = O \/ snd (print_files fuel fs [name] 0) = Er e end).
  { cbn [print_files]. destruct fuel as [|f].
    - cbn [print_events_loop print_loop]. split; [destruct (ropen (fs name)); reflexivity|left; reflexivity].
    - destruct (ropen (fs name)) as [r|e] eqn:O1.
      + assert (E : print_events_loop (S f) fs (mkm [Some (LNew name)] [(O, O)]) 0 = print_events_loop (S f) fs (mkm [Some (LOpen r)] [(O, O)]) 0).
        { cbn [print_events_loop mstep m_vars m_heap var_get find fst Nat.eqb option_map snd nth_error bind]. unfold lread. cbn [ensure]. rewrite O1. destruct (rnext r) as [[[ok ev] r']|e]; reflexivity. }
        rewrite E. specialize (L (S f) 0 r). destruct (print_events_loop (S f) fs (mkm [Some (LOpen r)] [(O, O)]) 0) as [t q]. destruct (print_loop (S f) r 0) as [t' q']. cbn [fst snd] in L. destruct L as [-> L].
        destruct q as [s|e]; [destruct L as [[k' ->] L]; cbn [fst snd]; rewrite app_nil_r; split; [reflexivity|]; split; [exists k'; reflexivity|exact L]|]. rewrite L. split; [reflexivity|right; reflexivity].
      + cbn [print_events_loop mstep m_vars m_heap var_get find fst Nat.eqb option_map snd nth_error bind]. unfold lread. cbn [ensure]. rewrite O1. split; [reflexivity|right; reflexivity]. }
  destruct (print_events_loop fuel fs (mkm [Some (LNew name)] [(O, O)]) 0) as [t q]. destruct F as [F1 F2]. unfold marprint. destruct (print_files fuel fs [name] 0) as [t' q']. cbn [fst snd] in *.
  split; [exact F1|]. destruct q as [s|e]; cbn [bind].
  - destruct F2 as [[k' ->] [l ->]]. cbn [mstep m_vars m_heap var_get find fst Nat.eqb option_map snd nth_error bind set_cell]. split; [reflexivity|]. intros p (k & K). cbn [m_heap] in K. destruct p as [|[|p]]; discriminate K.
  - destruct F2 as [F2|F2]; [left; exact F2|right; rewrite F2; reflexivity].
Qed.
Print Assumptions C89_print.

(** Two readers of the same file, used in turns, one of them after the other is gone. *)
Example C89_case : exists s, own_run c77_store no_readers [MNew 0 (b "b"); MNew 1 (b "b"); MRead 0; MRead 0; MRead 1; MDelete 0; MRead 1; MRead 1; MDelete 1] =
    Some (s, [ONone; ONone; ORead (Ok (true, sample)); ORead (Ok (true, sample)); ORead (Ok (true, sample)); ONone; ORead (Ok (true, sample)); ORead (Ok (false, empty_event)); ONone]) /\
  forall v, s v = None.
Proof.
  eexists. split; [vm_compute; reflexivity|]. intros [|[|v]]; reflexivity.
Qed.
