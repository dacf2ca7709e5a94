(** Property C51: a case that meets the hypotheses. *)
From Coq Require Import List Ascii String ZArith Bool Lia Sorted.
From Coq Require Import Floats.SpecFloat.
From Verif Require Import Base Dbl Stream StreamProofs Strings Pdg PdgThms Names Event Levels LevelsTextProofs LevelsThms Target Files FilesThms Struct StructProofs StructThms EventSpec.
Import ListNotations.
Open Scope list_scope.

(** Two nuclides listed, one of them in the file. *)
Definition case_index : list (Z * bytes) := [(1000180410, Base.b "x.dat"); (1000180400, Base.b "Ar.dat"); (1000180410, Base.b "Ar.dat")]%Z.
Definition case_data : bytes := [nl] ++ print_scheme show_e17 sch1 ++ [nl].
Definition case_world : world := mkworld
  (mkfiles (fun p => bytes_eqb p (Base.b "Ar.dat")) (fun d => if bytes_eqb d (Base.b "d") then Some [(Base.b "nuclide_index.txt", Some true)] else None)
     (fun p => if bytes_eqb p (Base.b "Ar.dat") then case_data else if bytes_eqb p (Base.b "d/nuclide_index.txt") then index_text case_index else []))
  (Base.b "c:d") true true (fun _ _ _ => Ok tt).

Lemma case_shape s : shape s = shape_of (fun x => x) s. Proof. reflexivity. Qed.

Example C51_case : exists d' a s', get_scheme case_world 1000180400 new_db = (d', Ok (Some (a, s'))) /\ shape s' = shape sch1 /\
  exists d'', get_scheme case_world 1000180410 d' = (d'', Ok None) /\ exists d3, get_scheme case_world 1000170400 d'' = (d3, Ok None).
Proof.
  destruct C30_example as (R1 & R2 & R3 & _).
  assert (NM : nameable 1000180400) by (split; [reflexivity|eexists; reflexivity]). assert (NM2 : nameable 1000180410) by (split; [reflexivity|eexists; reflexivity]). assert (NM3 : nameable 1000170400) by (split; [reflexivity|eexists; reflexivity]).
  assert (IO : index_ok case_index) by (repeat constructor; vm_compute; congruence).
  assert (SF : scheme_file show_e17 [sch1] case_data) by (apply (sf_cons show_e17 [nl] sch1 [] [nl]); [reflexivity|constructor; reflexivity]).
  assert (RD : Forall (readable (fun x => x) finite_dbl) [sch1]) by (constructor; [split; [exact R1|split; [exact R2|exact R3]]|constructor]).
  assert (NA : Forall (fun s => nameable (nucleus_pid (s_Z s) (s_A s))) [sch1]) by (constructor; [exact NM|constructor]).
  assert (PA : find_file (w_files case_world) (Base.b "Ar.dat") (w_path case_world) = Base.b "Ar.dat") by (vm_compute; reflexivity).
  assert (TA : f_text (w_files case_world) (Base.b "Ar.dat") = case_data) by reflexivity.
  pose proof (C51_lookup show_e17 (fun x => x) finite_dbl [] case_world 1000180400 case_index rd_dbl_show eq_refl NM) as L.
  assert (KN : knows case_world (db_after []) case_index) by (split; [vm_compute; discriminate|vm_compute; reflexivity]). specialize (L KN IO). cbv zeta in L.
  change (listed 1000180400 case_index) with (Some (Base.b "Ar.dat")) in L. cbv iota in L. rewrite PA in L.
  destruct (L [sch1]) as (d' & e & G & K' & F & O); [rewrite TA; exact SF|exact RD|exact NA|]. clear L.
  assert (E1 : nucleus_pid (s_Z sch1) (s_A sch1) = 1000180400%Z) by (vm_compute; reflexivity).
  unfold first_of in F. cbn [find] in F. rewrite E1 in F. change (1000180400 =? 1000180400)%Z with true in F. cbv iota in F. destruct F as (a & s' & -> & HS).
  exists d', a, s'. split; [exact G|]. split; [exact HS|].
  assert (ED : db_after [DGet case_world 1000180400] = d') by (unfold db_after; cbn [fold_left dstep]; change new_db with (db_after []); rewrite G; reflexivity).
  pose proof (C51_lookup show_e17 (fun x => x) finite_dbl [DGet case_world 1000180400] case_world 1000180410 case_index rd_dbl_show) as L. cbv zeta in L. rewrite ED in L.
  assert (E0 : assoc 1000180410 (d_table d') = None).
  { pose proof (O 1000180410%Z ltac:(discriminate)) as O1. unfold offered in O1. change (assoc 1000180410 (d_table (db_after []))) with (@None entry) in O1. unfold first_of in O1. cbn [find] in O1. rewrite E1 in O1. exact O1. }
  specialize (L E0 NM2 (K' _) IO). change (listed 1000180410 case_index) with (Some (Base.b "Ar.dat")) in L. cbv iota in L. rewrite PA in L.
  destruct (L [sch1]) as (d2 & e2 & G2 & K2 & F2 & O2); [rewrite TA; exact SF|exact RD|exact NA|]. clear L. unfold first_of in F2. cbn [find] in F2. rewrite E1 in F2. change (1000180410 =? 1000180400)%Z with false in F2. cbv iota in F2. subst e2.
  exists d2. split; [exact G2|].
  assert (ED2 : db_after [DGet case_world 1000180400; DGet case_world 1000180410] = d2) by (unfold db_after; cbn [fold_left dstep]; change new_db with (db_after []); rewrite G; cbn [fst]; rewrite G2; reflexivity).
  pose proof (C51_lookup show_e17 (fun x => x) finite_dbl [DGet case_world 1000180400; DGet case_world 1000180410] case_world 1000170400 case_index rd_dbl_show) as L. cbv zeta in L. rewrite ED2 in L.
  assert (E3 : assoc 1000170400 (d_table d2) = None).
  { pose proof (O 1000170400%Z ltac:(discriminate)) as O1. unfold offered in O1. change (assoc 1000170400 (d_table (db_after []))) with (@None entry) in O1. unfold first_of in O1. cbn [find] in O1. rewrite E1 in O1. cbv iota in O1.
    pose proof (O2 1000170400%Z ltac:(discriminate)) as O3. unfold offered in O3. rewrite O1 in O3. unfold first_of in O3. cbn [find] in O3. rewrite E1 in O3. exact O3. }
  specialize (L E3 NM3 (K2 _) IO). change (listed 1000170400 case_index) with (@None bytes) in L. cbv iota in L. destruct L as (d3 & G3 & _). exists d3. exact G3.
Qed.
