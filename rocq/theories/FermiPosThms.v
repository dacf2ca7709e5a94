(** Property C79, continued: the gamma function of the code has no zeros to the right of the
    imaginary axis, so the Fermi function is strictly positive. *)
From Coq Require Import List ZArith QArith Qreals Reals Lia Lra Psatz.
From Verif Require Import Base React Kin NucReact NucSpec NucThms NucEventThms Fermi FermiThms.
Import ListNotations.
Local Open Scope R_scope.

(** ** Complex numbers *)
Definition c0 : cx := mkcx 0 0.
Definition c1 : cx := mkcx 1 0.
Definition copp (a : cx) : cx := mkcx (- re a) (- im a).
Definition csub (a b : cx) : cx := cadd a (copp b).
Lemma cx_ring : ring_theory c0 c1 cadd cmul csub copp (@eq cx).
Proof. split; intros; apply cx_eq; unfold csub; cbn [cadd cmul copp c0 c1 re im]; ring. Qed.
(** Integers among them. *)
Definition cz (z : Z) : cx := InitialRing.gen_phiZ c0 c1 cadd cmul copp z.
Ltac cz_tac t := match t with cz ?z => match isZcst z with true => z | _ => constr:(InitialRing.NotConstant) end | c0 => constr:(0%Z) | c1 => constr:(1%Z) | _ => constr:(InitialRing.NotConstant) end.
Add Ring cx_ring : cx_ring (constants [cz_tac]).
Lemma cz_real z : cz z = mkcx (IZR z) 0.
Proof.
  assert (M := InitialRing.gen_phiZ_morph (Eqsth cx) (Eq_ext cadd cmul copp) cx_ring).
  assert (P : forall p, cz (Zpos p) = mkcx (IZR (Zpos p)) 0).
  { induction p as [|p IH] using Pos.peano_ind; [reflexivity|]. rewrite Pos2Z.inj_succ, <- Z.add_1_r. unfold cz in *. rewrite (morph_add M), IH, plus_IZR. apply cx_eq; cbn; ring. }
  destruct z as [|p|p]; [reflexivity|apply P|]. change (Zneg p) with (- Zpos p)%Z. unfold cz in *. rewrite (morph_opp M), P, opp_IZR. apply cx_eq; cbn [copp re im]; ring.
Qed.

Lemma norm_mul a b : cnorm (cmul a b) = cnorm a * cnorm b.
Proof. unfold cnorm. cbn [cmul re im]. ring. Qed.
Lemma norm_zero a : cnorm a = 0 -> a = c0.
Proof. unfold cnorm. intros H. apply cx_eq; cbn [c0 re im]; nra. Qed.
Lemma norm_nonzero a : a <> c0 -> 0 < cnorm a.
Proof. intros H. destruct (Rle_lt_or_eq_dec _ _ (norm_pos a)) as [L|E]; [exact L|]. destruct H. apply norm_zero. symmetry. exact E. Qed.
Lemma mul_nonzero a b : a <> c0 -> b <> c0 -> cmul a b <> c0.
Proof.
  intros A B E. apply norm_nonzero in A, B. assert (cnorm (cmul a b) = 0) by (rewrite E; unfold cnorm; cbn [c0 re im]; ring). rewrite norm_mul in H. nra.
Qed.
Lemma inv_l a : a <> c0 -> cmul (cinv a) a = c1.
Proof. intros A. apply norm_nonzero in A. unfold cnorm in A. apply cx_eq; cbn [cmul cinv c1 re im]; unfold cnorm; field; lra. Qed.
Lemma re_nonzero a : 0 < re a -> a <> c0.
Proof. intros H E. rewrite E in H. cbn [c0 re] in H. lra. Qed.

(** ** Polynomials with coefficients in Q, from the highest down, without zeros to the right of the imaginary axis *)
Definition creal (x : R) : cx := mkcx x 0.
Definition cq (q : Q) : cx := creal (Q2R q).
Fixpoint evalq (l : list Q) (w acc : cx) : cx := match l with [] => acc | c :: r => evalq r w (cadd (cmul acc w) (cq c)) end.
Definition poly (l : list Q) (w : cx) : cx := evalq l w c0.

Lemma cq_add a b : cq (a + b)%Q = cadd (cq a) (cq b). Proof. unfold cq, creal. rewrite Q2R_plus. apply cx_eq; cbn [cadd re im]; ring. Qed.
Lemma cq_mul a b : cq (a * b)%Q = cmul (cq a) (cq b). Proof. unfold cq, creal. rewrite Q2R_mult. apply cx_eq; cbn [cmul re im]; ring. Qed.
Lemma cq_sub a b : cq (a - b)%Q = csub (cq a) (cq b). Proof. unfold cq, creal. rewrite Q2R_minus. apply cx_eq; cbn [csub cadd copp re im]; ring. Qed.
Lemma cq_eq a b : (a == b)%Q -> cq a = cq b. Proof. intros H. unfold cq. rewrite (Qeq_eqR _ _ H). reflexivity. Qed.

(** The remainder of P = b w Q + R, with the coefficients of P and Q, heads left out. *)
Fixpoint rest (b : Q) (p q : list Q) : option (list Q) :=
  match p, q with
  | [c], [] => Some [Qred c]
  | c :: p, d :: q => match rest b p q with Some r => Some (Qred (c - b * d) :: r) | None => None end
  | _, _ => None
  end.
(** The division of Routh and Hurwitz: every quotient b w has b positive. *)
Fixpoint stable (fuel : nat) (p q : list Q) : bool :=
  match fuel, p, q with
  | S fuel, [c], [] => negb (Qeq_bool c 0)
  | S fuel, c :: p', d :: q' =>
      let b := Qred (c / d) in
      negb (Qeq_bool d 0) && (Qle_bool 0 b && negb (Qeq_bool b 0)) &&
      match rest b p' q' with Some (z :: r) => Qeq_bool z 0 && stable fuel q r | _ => false end
  | _, _, _ => false
  end.

Lemma evalq_acc l w : forall a a', evalq l w (cadd a a') = cadd (evalq l w a) (evalq (map (fun _ => 0%Q) l) w a').
Proof.
  induction l as [|c r IH]; intros a a'; cbn [evalq map]; [reflexivity|].
  replace (cadd (cmul (cadd a a') w) (cq c)) with (cadd (cadd (cmul a w) (cq c)) (cadd (cmul a' w) (cq 0))); [apply IH|].
  replace (cq 0) with c0 by (unfold cq, creal; rewrite RMicromega.Q2R_0; reflexivity). ring.
Qed.

(** P, Q and R run in step: acc_p = b w acc_q + acc_r with the heads still to be read. *)
Lemma rest_step b w : forall p q r, rest b p q = Some r -> forall ap aq ar, ap = cadd (cmul (cq b) aq) ar ->
  evalq p w ap = cadd (cmul (cq b) (cmul w (evalq q w aq))) (evalq r w ar).
Proof.
  induction p as [|c p IH]; intros q r H ap aq ar E; cbn [rest] in H; [discriminate|].
  destruct q as [|d q].
  - destruct p; [|discriminate]. assert (r = [Qred c]) as -> by congruence. cbn [evalq]. rewrite (cq_eq _ _ (Qred_correct c)). rewrite E. ring.
  - assert (H' : match rest b p q with Some r => Some (Qred (c - b * d) :: r) | None => None end = Some r) by (destruct p; exact H). clear H.
    destruct (rest b p q) as [r'|] eqn:F; [|discriminate]. assert (r = Qred (c - b * d) :: r') as -> by congruence. cbn [evalq].
    apply (IH _ _ F). rewrite E, (cq_eq _ _ (Qred_correct (c - b * d))), cq_sub, cq_mul. ring.
Qed.

Definition dot (a b : cx) : R := re a * re b + im a * im b.

Lemma stable_right w : 0 < re w -> forall fuel p q, stable fuel p q = true -> poly p w <> c0 /\ 0 <= dot (poly p w) (poly q w).
Proof.
  intros Hw. induction fuel as [|fuel IH]; intros p q H; cbn [stable] in H; [discriminate|].
  destruct p as [|c p]; [discriminate|]. destruct q as [|d q].
  - destruct p; [|discriminate]. apply negb_true_iff in H. apply Qeq_bool_neq in H. unfold poly. cbn [evalq]. split; [|unfold dot; cbn [c0 re im]; lra].
    intros E. apply H. apply eqR_Qeq. rewrite RMicromega.Q2R_0. apply (f_equal re) in E. unfold cq, creal in E. cbn [cadd cmul c0 re im] in E. lra.
  - assert (H' : let b := Qred (c / d) in negb (Qeq_bool d 0) && (Qle_bool 0 b && negb (Qeq_bool b 0)) && match rest b p q with Some (z :: r) => Qeq_bool z 0 && stable fuel (d :: q) r | _ => false end = true) by (destruct p; exact H).
    clear H. cbv zeta in H'. set (b := Qred (c / d)) in *. apply andb_prop in H' as [H1 H2]. apply andb_prop in H1 as [Hd H1]. apply andb_prop in H1 as [Hb Hb0].
    apply negb_true_iff in Hd, Hb0. apply Qeq_bool_neq in Hd, Hb0. apply Qle_bool_iff in Hb.
    destruct (rest b p q) as [[|z r]|] eqn:F; try discriminate. apply andb_prop in H2 as [Hz Hs]. apply Qeq_bool_iff in Hz.
    destruct (IH _ _ Hs) as [NQ DQ].
    assert (E : poly (c :: p) w = cadd (cmul (cq b) (cmul w (poly (d :: q) w))) (poly r w)).
    { unfold poly. change (evalq (c :: p) w c0) with (evalq p w (cadd (cmul c0 w) (cq c))). change (evalq (d :: q) w c0) with (evalq q w (cadd (cmul c0 w) (cq d))).
      rewrite (rest_step b w p q (z :: r) F _ (cadd (cmul c0 w) (cq d)) c0).
      - cbn [evalq]. rewrite (cq_eq _ _ Hz). replace (cadd (cmul c0 w) (cq 0)) with c0; [reflexivity|]. replace (cq 0) with c0 by (unfold cq, creal; rewrite RMicromega.Q2R_0; reflexivity). ring.
      - assert (C : (c == b * d)%Q) by (unfold b; rewrite Qred_correct; field; exact Hd). rewrite (cq_eq _ _ C), cq_mul. ring. }
    rewrite E. set (Qw := poly (d :: q) w) in *. set (Rw := poly r w) in *.
    assert (B : 0 < Q2R b). { rewrite <- RMicromega.Q2R_0. apply Qlt_Rlt. apply Qle_lteq in Hb as [L|L]; [exact L|]. destruct Hb0. symmetry. exact L. }
    assert (D : 0 < dot (cadd (cmul (cq b) (cmul w Qw)) Rw) Qw).
    { replace (dot (cadd (cmul (cq b) (cmul w Qw)) Rw) Qw) with (Q2R b * re w * cnorm Qw + dot Qw Rw) by (unfold dot, cnorm, cq, creal; cbn [cadd cmul re im]; ring).
      apply norm_nonzero in NQ. assert (0 < Q2R b * re w * cnorm Qw); [|lra]. apply Rmult_lt_0_compat; [|exact NQ]. apply Rmult_lt_0_compat; [exact B|exact Hw]. }
    split; [|lra]. intros Z0. rewrite Z0 in D. unfold dot in D. cbn [c0 re im] in D. lra.
Qed.

Lemma sum_right w fuel p q : 0 < re w -> stable (S fuel) p q = true -> q <> [] -> cadd (poly p w) (poly q w) <> c0.
Proof.
  intros Hw H NQ E. destruct (stable_right w Hw _ _ _ H) as [_ D].
  assert (N : poly q w <> c0).
  { cbn [stable] in H. destruct p as [|c p]; [discriminate|]. destruct q as [|d q]; [contradiction|].
    assert (H' : match rest (Qred (c / d)) p q with Some (z :: r) => Qeq_bool z 0 && stable fuel (d :: q) r | _ => false end = true) by (destruct p; apply andb_prop in H as [_ H]; exact H).
    destruct (rest _ p q) as [[|z r]|]; try discriminate. apply andb_prop in H' as [_ H']. apply (stable_right w Hw _ _ _ H'). }
  apply norm_nonzero in N. set (P := poly p w) in *. set (Q := poly q w) in *.
  assert (P = copp Q). { replace P with (csub (cadd P Q) Q) by ring. rewrite E. ring. }
  rewrite H0 in D. unfold dot, cnorm in *. cbn [copp re im] in D. lra.
Qed.

(** ** The sum of the Lanczos formula *)
Definition even_part : list Q :=
  [99999999999980993 # 100000000000000000; 0; 30095855034716156123603239 # 25000000000000000000000; 0; 646736292643652766923465573 # 5000000000000000000000; 0;
   6946501310917629812687579647 # 3125000000000000000000; 0; 426207831916787613 # 125000000000]%Q.
Definition odd_part : list Q :=
  [1311458333333588861362569 # 25000000000000000000000; 0; 15784880456697452186791557 # 1000000000000000000000; 0;
   8478621268779175770311451153 # 12500000000000000000000; 0; 40648319250249675489584283 # 9765625000000000000; 0]%Q.

Lemma parts_stable : stable 10 even_part odd_part = true.
Proof. vm_compute. reflexivity. Qed.

(** A coefficient of the numerator: a combination of the constants of the formula. *)
Fixpoint comb (cs : list Z) (ps : list cx) : cx :=
  match cs, ps with c :: cs, p :: ps => cadd (cmul (cz c) p) (comb cs ps) | _, _ => c0 end.
Fixpoint combr (cs : list Z) (ps : list R) : R :=
  match cs, ps with c :: cs, p :: ps => IZR c * p + combr cs ps | _, _ => 0 end.
Lemma comb_real cs : forall ps, comb cs (map creal ps) = creal (combr cs ps).
Proof.
  induction cs as [|c cs IH]; intros [|p ps]; cbn [comb combr map]; try reflexivity. rewrite IH, cz_real. apply cx_eq; cbn [creal cadd cmul re im]; ring.
Qed.

Lemma numerator w p0 p1 p2 p3 p4 p5 p6 p7 p8 i1 i2 i3 i4 i5 i6 i7 i8 :
  cmul i1 (cadd w (cz 0)) = c1 ->
  cmul i2 (cadd w (cz 1)) = c1 ->
  cmul i3 (cadd w (cz 2)) = c1 ->
  cmul i4 (cadd w (cz 3)) = c1 ->
  cmul i5 (cadd w (cz 4)) = c1 ->
  cmul i6 (cadd w (cz 5)) = c1 ->
  cmul i7 (cadd w (cz 6)) = c1 ->
  cmul i8 (cadd w (cz 7)) = c1 ->
  let ps := [p0; p1; p2; p3; p4; p5; p6; p7; p8] in
  cmul (cadd (cadd (cadd (cadd (cadd (cadd (cadd (cadd p0 (cmul p1 i1)) (cmul p2 i2)) (cmul p3 i3)) (cmul p4 i4)) (cmul p5 i5)) (cmul p6 i6)) (cmul p7 i7)) (cmul p8 i8)) (cmul (cmul (cmul (cmul (cmul (cmul (cmul (cadd w (cz 0)) (cadd w (cz 1))) (cadd w (cz 2))) (cadd w (cz 3))) (cadd w (cz 4))) (cadd w (cz 5))) (cadd w (cz 6))) (cadd w (cz 7))) =
  (cadd (cmul (cadd (cmul (cadd (cmul (cadd (cmul (cadd (cmul (cadd (cmul (cadd (cmul (cadd (cmul (cadd (cmul c0 w) (comb [1; 0; 0; 0; 0; 0; 0; 0; 0]%Z ps)) w) (comb [28; 1; 1; 1; 1; 1; 1; 1; 1]%Z ps)) w) (comb [322; 28; 27; 26; 25; 24; 23; 22; 21]%Z ps)) w) (comb [1960; 322; 295; 270; 247; 226; 207; 190; 175]%Z ps)) w) (comb [6769; 1960; 1665; 1420; 1219; 1056; 925; 820; 735]%Z ps)) w) (comb [13132; 6769; 5104; 3929; 3112; 2545; 2144; 1849; 1624]%Z ps)) w) (comb [13068; 13132; 8028; 5274; 3796; 2952; 2412; 2038; 1764]%Z ps)) w) (comb [5040; 13068; 5040; 2520; 1680; 1260; 1008; 840; 720]%Z ps)) w) (comb [0; 5040; 0; 0; 0; 0; 0; 0; 0]%Z ps)).
Proof.
  intros H1 H2 H3 H4 H5 H6 H7 H8 ps. unfold ps. cbn [comb].
  replace (cmul (cadd (cadd (cadd (cadd (cadd (cadd (cadd (cadd p0 (cmul p1 i1)) (cmul p2 i2)) (cmul p3 i3)) (cmul p4 i4)) (cmul p5 i5)) (cmul p6 i6)) (cmul p7 i7)) (cmul p8 i8)) (cmul (cmul (cmul (cmul (cmul (cmul (cmul (cadd w (cz 0)) (cadd w (cz 1))) (cadd w (cz 2))) (cadd w (cz 3))) (cadd w (cz 4))) (cadd w (cz 5))) (cadd w (cz 6))) (cadd w (cz 7)))) with
    (cadd (cadd (cadd (cadd (cadd (cadd (cadd (cadd (cmul p0 (cmul (cmul (cmul (cmul (cmul (cmul (cmul (cadd w (cz 0)) (cadd w (cz 1))) (cadd w (cz 2))) (cadd w (cz 3))) (cadd w (cz 4))) (cadd w (cz 5))) (cadd w (cz 6))) (cadd w (cz 7)))) (cmul (cmul p1 (cmul i1 (cadd w (cz 0)))) (cmul (cmul (cmul (cmul (cmul (cmul (cadd w (cz 1)) (cadd w (cz 2))) (cadd w (cz 3))) (cadd w (cz 4))) (cadd w (cz 5))) (cadd w (cz 6))) (cadd w (cz 7))))) (cmul (cmul p2 (cmul i2 (cadd w (cz 1)))) (cmul (cmul (cmul (cmul (cmul (cmul (cadd w (cz 0)) (cadd w (cz 2))) (cadd w (cz 3))) (cadd w (cz 4))) (cadd w (cz 5))) (cadd w (cz 6))) (cadd w (cz 7))))) (cmul (cmul p3 (cmul i3 (cadd w (cz 2)))) (cmul (cmul (cmul (cmul (cmul (cmul (cadd w (cz 0)) (cadd w (cz 1))) (cadd w (cz 3))) (cadd w (cz 4))) (cadd w (cz 5))) (cadd w (cz 6))) (cadd w (cz 7))))) (cmul (cmul p4 (cmul i4 (cadd w (cz 3)))) (cmul (cmul (cmul (cmul (cmul (cmul (cadd w (cz 0)) (cadd w (cz 1))) (cadd w (cz 2))) (cadd w (cz 4))) (cadd w (cz 5))) (cadd w (cz 6))) (cadd w (cz 7))))) (cmul (cmul p5 (cmul i5 (cadd w (cz 4)))) (cmul (cmul (cmul (cmul (cmul (cmul (cadd w (cz 0)) (cadd w (cz 1))) (cadd w (cz 2))) (cadd w (cz 3))) (cadd w (cz 5))) (cadd w (cz 6))) (cadd w (cz 7))))) (cmul (cmul p6 (cmul i6 (cadd w (cz 5)))) (cmul (cmul (cmul (cmul (cmul (cmul (cadd w (cz 0)) (cadd w (cz 1))) (cadd w (cz 2))) (cadd w (cz 3))) (cadd w (cz 4))) (cadd w (cz 6))) (cadd w (cz 7))))) (cmul (cmul p7 (cmul i7 (cadd w (cz 6)))) (cmul (cmul (cmul (cmul (cmul (cmul (cadd w (cz 0)) (cadd w (cz 1))) (cadd w (cz 2))) (cadd w (cz 3))) (cadd w (cz 4))) (cadd w (cz 5))) (cadd w (cz 7))))) (cmul (cmul p8 (cmul i8 (cadd w (cz 7)))) (cmul (cmul (cmul (cmul (cmul (cmul (cadd w (cz 0)) (cadd w (cz 1))) (cadd w (cz 2))) (cadd w (cz 3))) (cadd w (cz 4))) (cadd w (cz 5))) (cadd w (cz 6))))) by ring.
  rewrite H1, H2, H3, H4, H5, H6, H7, H8. ring.
Qed.

Lemma cq_coef q x : Q2R q = x -> cq q = creal x. Proof. intros <-. reflexivity. Qed.
Lemma coef_8 : cq (99999999999980993 # 100000000000000000) = comb [1; 0; 0; 0; 0; 0; 0; 0; 0]%Z (map creal lanczos).
Proof. rewrite comb_real. apply cq_coef. unfold lanczos, Q2R. cbn [combr Qnum Qden]. lra. Qed.
Lemma coef_7 : cq (1311458333333588861362569 # 25000000000000000000000) = comb [28; 1; 1; 1; 1; 1; 1; 1; 1]%Z (map creal lanczos).
Proof. rewrite comb_real. apply cq_coef. unfold lanczos, Q2R. cbn [combr Qnum Qden]. lra. Qed.
Lemma coef_6 : cq (30095855034716156123603239 # 25000000000000000000000) = comb [322; 28; 27; 26; 25; 24; 23; 22; 21]%Z (map creal lanczos).
Proof. rewrite comb_real. apply cq_coef. unfold lanczos, Q2R. cbn [combr Qnum Qden]. lra. Qed.
Lemma coef_5 : cq (15784880456697452186791557 # 1000000000000000000000) = comb [1960; 322; 295; 270; 247; 226; 207; 190; 175]%Z (map creal lanczos).
Proof. rewrite comb_real. apply cq_coef. unfold lanczos, Q2R. cbn [combr Qnum Qden]. lra. Qed.
Lemma coef_4 : cq (646736292643652766923465573 # 5000000000000000000000) = comb [6769; 1960; 1665; 1420; 1219; 1056; 925; 820; 735]%Z (map creal lanczos).
Proof. rewrite comb_real. apply cq_coef. unfold lanczos, Q2R. cbn [combr Qnum Qden]. lra. Qed.
Lemma coef_3 : cq (8478621268779175770311451153 # 12500000000000000000000) = comb [13132; 6769; 5104; 3929; 3112; 2545; 2144; 1849; 1624]%Z (map creal lanczos).
Proof. rewrite comb_real. apply cq_coef. unfold lanczos, Q2R. cbn [combr Qnum Qden]. lra. Qed.
Lemma coef_2 : cq (6946501310917629812687579647 # 3125000000000000000000) = comb [13068; 13132; 8028; 5274; 3796; 2952; 2412; 2038; 1764]%Z (map creal lanczos).
Proof. rewrite comb_real. apply cq_coef. unfold lanczos, Q2R. cbn [combr Qnum Qden]. lra. Qed.
Lemma coef_1 : cq (40648319250249675489584283 # 9765625000000000000) = comb [5040; 13068; 5040; 2520; 1680; 1260; 1008; 840; 720]%Z (map creal lanczos).
Proof. rewrite comb_real. apply cq_coef. unfold lanczos, Q2R. cbn [combr Qnum Qden]. lra. Qed.
Lemma coef_0 : cq (426207831916787613 # 125000000000) = comb [0; 5040; 0; 0; 0; 0; 0; 0; 0]%Z (map creal lanczos).
Proof. rewrite comb_real. apply cq_coef. unfold lanczos, Q2R. cbn [combr Qnum Qden]. lra. Qed.

Definition lsum (z : cx) : cx := match lanczos with [] => mkcx 0 0 | p0 :: ps => lanczos_sum z 1 ps (mkcx p0 0) end.

Lemma lsum_nonzero w : 0 < re w -> lsum (cadd w (mkcx (-1) 0)) <> c0.
Proof.
  intros Hw E.
  assert (F : forall j, (1 <= j)%Z -> cadd (cadd w (mkcx (-1) 0)) (mkcx (IZR j) 0) = cadd w (cz (j - 1)%Z)) by (intros j _; rewrite cz_real, minus_IZR; apply cx_eq; cbn [cadd re im]; ring).
  assert (I : forall j, (1 <= j)%Z -> cmul (cinv (cadd w (cz (j - 1)))) (cadd w (cz (j - 1))) = c1).
  { intros j Hj. apply inv_l, re_nonzero. rewrite cz_real. cbn [cadd re]. assert (0 <= IZR (j - 1)) by (apply IZR_le; lia). lra. }
  assert (S : forall p a, cscale p a = cmul (creal p) a) by (intros p a; apply cx_eq; cbn [creal cscale cmul re im]; ring).
  unfold lsum, lanczos in E. cbn [lanczos_sum] in E. rewrite !F, !S in E by lia.
  cbn [Z.add Z.sub Z.opp Pos.add Pos.succ Z.pos_sub Pos.pred_double Z.pred_double Z.succ_double] in E.
  assert (J : forall k, (0 <= k)%Z -> cmul (cinv (cadd w (cz k))) (cadd w (cz k)) = c1) by (intros k Hk; specialize (I (k + 1)%Z); replace (k + 1 - 1)%Z with k in I by lia; apply I; lia).
  pose proof (numerator w (creal (99999999999980993 / 10 ^ 17)) (creal (6765203681218851 / 10 ^ 13)) (creal (- (12591392167224028 / 10 ^ 13))) (creal (77132342877765313 / 10 ^ 14)) (creal (- (17661502916214059 / 10 ^ 14))) (creal (12507343278686905 / 10 ^ 15)) (creal (- (13857109526572012 / 10 ^ 17))) (creal (99843695780195716 / 10 ^ 22)) (creal (15056327351493116 / 10 ^ 23))
    _ _ _ _ _ _ _ _ (J 0%Z ltac:(lia)) (J 1%Z ltac:(lia)) (J 2%Z ltac:(lia)) (J 3%Z ltac:(lia)) (J 4%Z ltac:(lia)) (J 5%Z ltac:(lia)) (J 6%Z ltac:(lia)) (J 7%Z ltac:(lia))) as N.
  cbv zeta in N. change (mkcx (99999999999980993 / 10 ^ 17) 0) with (creal (99999999999980993 / 10 ^ 17)) in E. rewrite E in N.
  change [creal (99999999999980993 / 10 ^ 17); creal (6765203681218851 / 10 ^ 13); creal (- (12591392167224028 / 10 ^ 13)); creal (77132342877765313 / 10 ^ 14); creal (- (17661502916214059 / 10 ^ 14)); creal (12507343278686905 / 10 ^ 15); creal (- (13857109526572012 / 10 ^ 17)); creal (99843695780195716 / 10 ^ 22); creal (15056327351493116 / 10 ^ 23)] with (map creal lanczos) in N.
  rewrite <- coef_8, <- coef_7, <- coef_6, <- coef_5, <- coef_4, <- coef_3, <- coef_2, <- coef_1, <- coef_0 in N.
  apply (sum_right w 9 even_part odd_part Hw parts_stable); [discriminate|]. unfold poly, even_part, odd_part. cbn [evalq].
  replace (cq 0) with c0 by (unfold cq, creal; rewrite RMicromega.Q2R_0; reflexivity).
  transitivity (cmul c0 (cmul (cmul (cmul (cmul (cmul (cmul (cmul (cadd w (cz 0)) (cadd w (cz 1))) (cadd w (cz 2))) (cadd w (cz 3))) (cadd w (cz 4))) (cadd w (cz 5))) (cadd w (cz 6))) (cadd w (cz 7)))); [rewrite N; ring|ring].
Qed.

Lemma exp_nonzero a : cexp a <> c0.
Proof.
  intros E. assert (N : cnorm (cexp a) = 0) by (rewrite E; unfold cnorm; cbn [c0 re im]; ring). revert N. unfold cnorm. cbn [cexp re im].
  pose proof (sin2_cos2 (im a)) as T. unfold Rsqr in T. pose proof (exp_pos (re a)) as P.
  replace ((exp (re a) * cos (im a)) ^ 2 + (exp (re a) * sin (im a)) ^ 2) with (exp (re a) * exp (re a) * (sin (im a) * sin (im a) + cos (im a) * cos (im a))) by ring. rewrite T. nra.
Qed.

Lemma right_nonzero z : 0 < re z -> gamma_right z <> c0.
Proof.
  intros Hz. unfold gamma_right. cbv zeta. change (match lanczos with [] => mkcx 0 0 | p0 :: ps => lanczos_sum (cadd z (mkcx (-1) 0)) 1 ps (mkcx p0 0) end) with (lsum (cadd z (mkcx (-1) 0))).
  apply mul_nonzero; [|apply lsum_nonzero, Hz]. apply mul_nonzero; [|apply exp_nonzero]. apply mul_nonzero; [|apply exp_nonzero].
  apply re_nonzero. cbn [re]. apply sqrt_lt_R0. unfold gamma_pi. lra.
Qed.

Lemma cosh_pos x : 0 < cosh x.
Proof. unfold cosh. pose proof (exp_pos x). pose proof (exp_pos (- x)). lra. Qed.

(** The gamma function of the code has no zero with a positive real part. *)
Theorem C79_gamma_nonzero z : 0 < re z -> 0 < cnorm (gamma z).
Proof.
  intros Hz. apply norm_nonzero. unfold gamma. destruct (Rlt_dec (re z) (1 / 2)) as [L|L]; [|apply right_nonzero, Hz].
  assert (D : cmul (csin (cscale gamma_pi z)) (gamma_right (cadd (mkcx 1 0) (cscale (-1) z))) <> c0).
  { apply mul_nonzero; [|apply right_nonzero; cbn [cadd cscale re]; lra].
    apply re_nonzero. cbn [csin cscale re im]. apply Rmult_lt_0_compat; [|apply cosh_pos]. pose proof PI2_1. apply sin_gt_0; unfold gamma_pi; lra. }
  set (d := cmul _ _) in *. intros E. assert (P : cmul (cscale gamma_pi (cinv d)) d = cscale gamma_pi c1) by (rewrite <- (inv_l d D); apply cx_eq; cbn [cscale cmul re im]; ring).
  rewrite E in P. apply (f_equal re) in P. cbn [cmul c0 c1 cscale re im] in P. unfold gamma_pi in P. lra.
Qed.
Print Assumptions C79_gamma_nonzero.

(** So the Fermi function is positive for every residue of at most 137 protons. (The gamma
    function of the C library has no zeros to the right of 0.) *)
Theorem C79_positive tgamma n beta : (forall x, 0 < x -> tgamma x <> 0) -> (0 <= code_Z (r_d (n_r n)) <= 137)%Z -> 0 < fermi_function tgamma n beta.
Proof.
  intros HT HZ. unfold fermi_function. cbv zeta. set (s := sqrt _).
  assert (Hs : 0 < s). { unfold s. apply sqrt_lt_R0. destruct HZ as [A B]. apply IZR_le in A, B. set (x := IZR (code_Z (r_d (n_r n)))) in *. assert (Y : 0 <= alpha * x < 1) by (unfold alpha; lra). set (y := alpha * x) in *. nra. }
  unfold Rdiv. apply Rmult_lt_0_compat; [|apply Rinv_0_lt_compat; specialize (HT (1 + 2 * s) ltac:(lra)); replace (tgamma (1 + 2 * s) ^ 2) with (Rsqr (tgamma (1 + 2 * s))) by (unfold Rsqr; ring); apply Rsqr_pos_lt, HT].
  apply Rmult_lt_0_compat; [|apply C79_gamma_nonzero; exact Hs]. apply Rmult_lt_0_compat; [|apply exp_pos]. apply Rmult_lt_0_compat; [lra|]. unfold Rpower. apply exp_pos.
Qed.
Print Assumptions C79_positive.

(** And strictly greater for a lepton than for its antiparticle. *)
Theorem C79_attraction tgamma n n' beta : (forall x, 0 < x -> tgamma x <> 0) -> 0 < beta < 1 ->
  (0 < r_c (n_r n))%Z -> r_c (n_r n') = (- r_c (n_r n))%Z -> r_d (n_r n') = r_d (n_r n) -> n_mc n' = n_mc n ->
  (0 < code_Z (r_d (n_r n)) <= 137)%Z -> fermi_function tgamma n' beta < fermi_function tgamma n beta.
Proof.
  intros HT Hb Hc Hc' Hd Hm HZ. destruct (C79_charge tgamma n n' beta Hb Hc Hc' Hd Hm) as [E _]. rewrite E.
  assert (P : 0 < fermi_function tgamma n' beta) by (apply C79_positive; [exact HT|rewrite Hd; lia]).
  assert (1 < exp (2 * PI * alpha * IZR (code_Z (r_d (n_r n))) / beta)); [|nra]. rewrite <- exp_0. apply exp_increasing.
  assert (0 < IZR (code_Z (r_d (n_r n)))) by (apply IZR_lt; lia). pose proof PI_RGT_0. assert (0 < alpha) by (unfold alpha; lra).
  unfold Rdiv. apply Rmult_lt_0_compat; [|apply Rinv_0_lt_compat; lra]. apply Rmult_lt_0_compat; [|assumption]. apply Rmult_lt_0_compat; lra.
Qed.
Print Assumptions C79_attraction.

(** Euler's reflection formula, with the code's value for pi. *)
Theorem C79_reflection z : 0 < re z < 1 / 2 ->
  cmul (cmul (gamma z) (gamma (cadd (mkcx 1 0) (cscale (-1) z)))) (csin (cscale gamma_pi z)) = mkcx gamma_pi 0.
Proof.
  intros [Hz L]. unfold gamma at 1. destruct (Rlt_dec (re z) (1 / 2)) as [_|C]; [|contradiction].
  unfold gamma. destruct (Rlt_dec (re (cadd (mkcx 1 0) (cscale (-1) z))) (1 / 2)) as [C|_]; [cbn [cadd cscale re] in C; lra|].
  set (G := gamma_right _). set (S := csin _).
  assert (D : cmul S G <> c0).
  { apply mul_nonzero; [|apply right_nonzero; cbn [cadd cscale re]; lra].
    apply re_nonzero. unfold S. cbn [csin cscale re im]. apply Rmult_lt_0_compat; [|apply cosh_pos]. pose proof PI2_1. apply sin_gt_0; unfold gamma_pi; lra. }
  pose proof (inv_l _ D) as E. set (V := cinv (cmul S G)) in *.
  replace (cscale gamma_pi V) with (cmul (mkcx gamma_pi 0) V) by (apply cx_eq; cbn [cscale cmul re im]; ring).
  replace (cmul (cmul (cmul (mkcx gamma_pi 0) V) G) S) with (cmul (mkcx gamma_pi 0) (cmul V (cmul S G))) by ring. rewrite E. ring.
Qed.
Print Assumptions C79_reflection.

(** The Fermi function in terms of the momentum p and the total energy E of the lepton in the
    rest frame of the nucleus, as in textbooks, with the radius 1.2 A^(1/3) fm. *)
Theorem C79_formula tgamma n p E s : 0 < n_mc n -> 0 < p -> 0 < E -> E ^ 2 = p ^ 2 + n_mc n ^ 2 ->
  let Zf := IZR (code_Z (r_d (n_r n))) in
  let A := IZR (code_A (r_d (n_r n))) in
  0 <= s -> s ^ 2 = 1 - (alpha * Zf) ^ 2 ->
  let eta := (if Z_lt_dec 0 (r_c (n_r n)) then 1 else -1) * alpha * Zf * E / p in
  fermi_function tgamma n (p / E) =
    2 * (1 + s) * exp ((2 * s - 2) * ln (2 * p * (6 / 5 * Rpower A (1 / 3) / (1973269718 / 10000000)))) * exp (PI * eta) * cnorm (gamma (mkcx s eta)) / (tgamma (1 + 2 * s)) ^ 2.
Proof.
  intros Hm Hp HE HH Zf A Hs Hss eta. unfold fermi_function. cbv zeta. fold Zf.
  assert (Es : sqrt (1 - (alpha * Zf) ^ 2) = s) by (rewrite <- Hss; apply sqrt_pow2; exact Hs). rewrite Es.
  assert (Ee : (if Z.ltb 0 (r_c (n_r n)) then alpha * Zf / (p / E) else alpha * Zf / (p / E) * -1) = eta).
  { unfold eta. destruct (Z_lt_dec 0 (r_c (n_r n))) as [L|L]; destruct (Z.ltb_spec 0 (r_c (n_r n))); try lia; field; lra. }
  rewrite Ee. unfold Rpower at 1. do 3 f_equal. f_equal. f_equal. f_equal.
  assert (G : Rpower (1 - p / E * (p / E)) (- (1 / 2)) = E / n_mc n).
  { replace (1 - p / E * (p / E)) with ((n_mc n / E) * (n_mc n / E)) by (replace (n_mc n / E * (n_mc n / E)) with (n_mc n ^ 2 / E ^ 2) by (field; lra); replace (n_mc n ^ 2) with (E ^ 2 - p ^ 2) by lra; field; lra).
    assert (0 < n_mc n / E) by (apply Rdiv_lt_0_compat; lra).
    rewrite Rpower_Ropp. replace (1 / 2) with (/ 2) by field. rewrite Rpower_sqrt by nra. rewrite sqrt_square by lra. field. lra. }
  rewrite G. unfold radius, r0, hbar_c. fold A. f_equal. field. lra.
Qed.
Print Assumptions C79_formula.

(** A capture on argon 40 and its mirror image with the antineutrino. *)
Example C79_case : exists n n' : nuc,
  (0 < r_c (n_r n))%Z /\ r_c (n_r n') = (- r_c (n_r n))%Z /\ r_d (n_r n') = r_d (n_r n) /\ n_mc n' = n_mc n /\ (0 < code_Z (r_d (n_r n)) <= 137)%Z.
Proof.
  exists (mknuc (mkr NeutrinoCC 12 1000180400 11 1000190400 0 0 (-1) 1) 0 37 (1/2) 37 FermiFunction []),
    (mknuc (mkr AntiNeutrinoCC (-12) 1000200400 (-11) 1000190400 0 0 1 1) 0 37 (1/2) 37 FermiFunction []).
  cbn [n_r n_mc r_c r_d]. repeat split; reflexivity || (vm_compute; discriminate).
Qed.
(** A free neutron is an uncharged residue. *)
Example C79_neutral_case : code_Z 2112 = 0%Z.
Proof. reflexivity. Qed.
(** The gamma function at a number off the real axis, on either side of one half. *)
Example C79_gamma_case : 0 < cnorm (gamma (mkcx (1 / 4) 3)) /\ 0 < cnorm (gamma (mkcx 2 (-5))).
Proof. split; apply C79_gamma_nonzero; cbn [re]; lra. Qed.
(** An electron of 3 MeV momentum after a capture on argon 40, in round numbers. *)
Example C79_formula_case : exists (n : nuc) p E s, 0 < n_mc n /\ 0 < p /\ 0 < E /\ E ^ 2 = p ^ 2 + n_mc n ^ 2 /\ 0 <= s /\ s ^ 2 = 1 - (alpha * IZR (code_Z (r_d (n_r n)))) ^ 2.
Proof.
  exists (mknuc (mkr NeutrinoCC 12 1000180400 11 1000190400 0 0 (-1) 1) 0 37 4 37 FermiFunction []), 3, 5, (sqrt (1 - (alpha * 19) ^ 2)).
  cbn [n_mc n_r r_d]. replace (code_Z 1000190400) with 19%Z by reflexivity. repeat split; try lra; [apply sqrt_pos|]. rewrite pow2_sqrt; [reflexivity|]. unfold alpha. lra.
Qed.
