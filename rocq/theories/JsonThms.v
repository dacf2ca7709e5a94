(** Properties of MARLEY's JSON reader and writer: C01-C05, C54-C56. *)
From Coq Require Import List Ascii String ZArith Bool Lia.
From Coq Require Import Floats.SpecFloat.
From Verif Require Import Base Dbl Json JsonSpec JsonProofs JsonExpProofs JsonRtProofs JsonExtraProofs.
Import ListNotations.
Local Open Scope Z_scope.

(** ** C01: strings survive a dump and a load, whatever bytes they contain *)

Theorem C01_string_roundtrip : forall indent k s, plain_key k ->
  load (dump indent (JObj [(k, JStr s)])) = Ok (JObj [(k, JStr s)]).
Proof. exact string_roundtrip. Qed.
Print Assumptions C01_string_roundtrip.

Example C01_example : plain_key (b "name") /\
  load (dump (Some 2%nat) (JObj [(b "name", JStr [chr 34; chr 92; chr 10; chr 0; chr 255])]))
  = Ok (JObj [(b "name", JStr [chr 34; chr 92; chr 10; chr 0; chr 255])]).
Proof.
  split; [|vm_compute; reflexivity].
  apply plain_keyb_ok. vm_compute. reflexivity.
Qed.

(** The accessor to_string gives the string itself only if nothing in it needs
    an escape. *)
Theorem C01_to_string_plain : forall s, plain_key s -> to_string (JStr s) = s.
Proof. exact to_string_plain. Qed.
Print Assumptions C01_to_string_plain.

Theorem C01_to_string_refuted : exists s,
  load (dump None (JObj [(b "k", JStr s)])) = Ok (JObj [(b "k", JStr s)]) /\ to_string (JStr s) <> s.
Proof. exists [chr 10]. split; [vm_compute; reflexivity|vm_compute; discriminate]. Qed.
Print Assumptions C01_to_string_refuted.

(** ** C02: whole documents survive a dump and a load, for every indent *)

Theorem C02_document_roundtrip : forall indent l, storable (JObj l) ->
  exists j', load (dump indent (JObj l)) = Ok j' /\ same_value (JObj l) j'.
Proof. exact dump_load. Qed.
Print Assumptions C02_document_roundtrip.

(** Without floating-point numbers the very same value comes back. *)
Theorem C02_document_roundtrip_exact : forall indent l, storable (JObj l) -> no_float (JObj l) ->
  load (dump indent (JObj l)) = Ok (JObj l).
Proof. exact dump_load_exact. Qed.
Print Assumptions C02_document_roundtrip_exact.

(** With floating-point numbers between 1e-300 and 1e17 in magnitude every
    number comes back within 2^-51 of its value. *)
Theorem C02_document_roundtrip_near : forall indent l, all_floats normal_dbl (JObj l) ->
  exists j', load (dump indent (JObj l)) = Ok j' /\ rel_value near_num (JObj l) j'.
Proof. exact dump_load_near. Qed.
Print Assumptions C02_document_roundtrip_near.

Definition C02_doc : list (bytes * json) :=
  [(b "a", JArr [JInt (-7); JFlt (dec_to_dbl true 15 (-1)); JNull; JArr []]);
   (b "b", JObj [(b "x", JBool true); (b "y", JStr (b "q\"))])].
Example C02_example : storable (JObj C02_doc) /\
  exists j', load (dump (Some 4%nat) (JObj C02_doc)) = Ok j' /\ j' = JObj C02_doc.
Proof.
  split; [|eexists; split; vm_compute; reflexivity].
  unfold storable, C02_doc. storable_tac.
Qed.

(** A key containing a character that needs an escape is not preserved. *)
Theorem C02_key_refuted : exists k v,
  load (dump None (JObj [(k, v)])) = Ok (JObj [(escape k, v)]) /\ escape k <> k.
Proof. exists [chr 10], JNull. split; [vm_compute; reflexivity|vm_compute; discriminate]. Qed.
Print Assumptions C02_key_refuted.

(** ** C03: loading any bytes ends, with an object or a thrown error *)

Theorem C03_load_ends : forall s, (exists l, load s = Ok (JObj l)) \/
  load s = Er MarleyErr \/ load s = Er StdInvalid \/ load s = Er StdRange.
Proof. exact load_outcome. Qed.
Print Assumptions C03_load_ends.

(** The recursion depth is at most twice the length of the text: any larger
    allowance gives the same result. *)
Theorem C03_depth_bound : forall f s, (2 * List.length s + 1 <= f)%nat ->
  parse_next f s = parse_next (2 * List.length s + 1) s /\ parse_next f s <> Er NoFuel.
Proof. exact parse_fuel_enough. Qed.
Print Assumptions C03_depth_bound.

Example C03_example :
  load (b "{ a : [ [ 1, 2.5e1 ], 'x' ] }") = Er MarleyErr /\
  load (b "{ ""a"" : [ [ 1, 25 ], true, ], }") =
    Ok (JObj [(b "a", JArr [JArr [JInt 1; JInt 25]; JBool true])]) /\
  load (b "{ a : - }") = Er StdInvalid /\
  load (b "{ a : 9999999999999999999 }") = Er StdRange.
Proof. repeat split; vm_compute; reflexivity. Qed.

(** ** C04: a truncated document is never accepted *)

Theorem C04_truncated_rejected : forall indent l, all_floats small_dbl (JObj l) ->
  forall p q, dump indent (JObj l) = p ++ q -> q <> [] -> forall w, load p <> Ok w.
Proof. exact dump_truncated. Qed.
Print Assumptions C04_truncated_rejected.

(** The same for any text, hand-written ones included, that ends where its
    object ends. *)
Theorem C04_truncated_text_rejected : forall s v p q,
  load_rest s = Ok (v, []) -> s = p ++ q -> q <> [] -> forall w, load p <> Ok w.
Proof. exact load_prefix_rejected. Qed.
Print Assumptions C04_truncated_text_rejected.

Example C04_example : all_floats small_dbl (JObj [(b "a", JFlt (dec_to_dbl false 3 (-200)))]) /\
  load_rest (b "{ a : [ 1, 2 ] // note
 }") = Ok (JObj [(b "a", JArr [JInt 1; JInt 2])], []).
Proof.
  split; [|vm_compute; reflexivity].
  apply single_storable; [|apply st_flt; vm_compute; split; reflexivity].
  apply plain_keyb_ok. vm_compute. reflexivity.
Qed.

(** ** C05: numbers keep their value *)

Theorem C05_long_exact : forall indent k z, plain_key k -> is_long z ->
  load (dump indent (JObj [(k, JInt z)])) = Ok (JObj [(k, JInt z)]).
Proof. exact int_roundtrip. Qed.
Print Assumptions C05_long_exact.

(** Zero and doubles of magnitude in [1e-4, 1e17): the same double. *)
Theorem C05_double_exact : forall indent k x, plain_key k -> fixed_dbl x ->
  exists j y, load (dump indent (JObj [(k, JFlt x)])) = Ok (JObj [(k, j)]) /\
    to_double j = (y, true) /\ same_dbl x y.
Proof. exact number_roundtrip. Qed.
Print Assumptions C05_double_exact.

(** Doubles of magnitude in [1e-300, 1e17): within 2^-51. *)
Theorem C05_double_near : forall indent k x, plain_key k -> normal_dbl x ->
  exists j y, load (dump indent (JObj [(k, JFlt x)])) = Ok (JObj [(k, j)]) /\
    to_double j = (y, true) /\ near_dbl x y.
Proof. exact number_roundtrip_near. Qed.
Print Assumptions C05_double_near.

(** Doubles of magnitude 1e17 or more, infinities and NaN: rejected. *)
Theorem C05_large_rejected : forall indent k x, too_large x ->
  load (dump indent (JObj [(k, JFlt x)])) = Er MarleyErr.
Proof. exact too_large_rejected. Qed.
Print Assumptions C05_large_rejected.

Example C05_example :
  fixed_dbl (dec_to_dbl false 1 (-1)) /\ normal_dbl (dec_to_dbl true 15 (-6)) /\
  too_large (dec_to_dbl false 1 17) /\ is_long (-2 ^ 63).
Proof. vm_compute. repeat split; congruence. Qed.

(** Below 1e-4 the same double is not guaranteed. *)
Theorem C05_small_refuted : exists x y, normal_dbl x /\
  load (dump None (JObj [(b "k", JFlt x)])) = Ok (JObj [(b "k", JFlt y)]) /\ x <> y.
Proof.
  exists (dec_to_dbl false 15 (-6)).
  eexists. split; [vm_compute; repeat split; congruence|].
  split; [vm_compute; reflexivity|vm_compute; discriminate].
Qed.
Print Assumptions C05_small_refuted.

(** ** C54: configuration syntax *)

(** Every document of the grammar in JsonSpec.v (white space, both kinds of
    comments, trailing commas, unquoted keys, escapes, repeated keys) is read
    as the value it denotes. *)
Theorem C54_documents_load : forall v s, document v s -> load s = Ok v.
Proof. exact load_document. Qed.
Print Assumptions C54_documents_load.

Example C54_example :
  document (mk_obj [(b "seed", JInt 12); (b "seed", JArr [JBool true])])
    (b "/* c */{ seed : 12,// x
 ""seed"":[true , ]}; junk").
Proof.
  exists (b "/* c */"), (b " seed : 12,// x
 ""seed"":[true , ]}"), (b "; junk").
  split; [|split; [|reflexivity]].
  - apply (ws_block (b " c ") []); [|constructor]. intros (p & q & E).
    destruct p as [|? [|? [|? [|? p]]]]; discriminate.
  - apply dn_obj.
    apply (ob_more (b " ") (b "seed") (b "seed") (b " ") (b " ") (JInt 12) (b "12") []
             [(b "seed", JArr [JBool true])] (b "// x
 ""seed"":[true , ]}")).
    + repeat constructor.
    + apply kt_word; try discriminate; try reflexivity.
      * intros d Hd. cbn in Hd. intuition subst; try reflexivity; discriminate.
      * repeat constructor.
    + repeat constructor.
    + apply dn_num. apply (nt_int false (b "12")); [discriminate| |split; vm_compute; congruence].
      intros d Hd. cbn in Hd. intuition subst; reflexivity.
    + split; [constructor|intros _; exact I].
    + apply (ob_last (b "// x
 ") (b "seed") (b """seed""") [] [] (JArr [JBool true]) (b "[true , ]") []).
      * apply (ws_line (b " x") (b " ")); [|repeat constructor].
        intros H. cbn in H. intuition discriminate.
      * apply (kt_quoted (b "seed") (b "seed")); [|constructor].
        repeat (apply tx_plain; [discriminate|discriminate|]). constructor.
      * constructor.
      * apply dn_arr. apply (ar_more [] (JBool true) (b "true") (b " ") [] (b " ]")).
        -- constructor.
        -- constructor.
        -- split; [repeat constructor|intros _; reflexivity].
        -- apply (ar_end (b " ")). repeat constructor.
      * split; [constructor|intros _; exact I].
Qed.

(** ** C55: JSON objects behave as maps *)

Theorem C55_get_set_same : forall k v l, obj_get k (obj_set k v l) = Some v.
Proof. exact obj_get_set_same. Qed.
Print Assumptions C55_get_set_same.

Theorem C55_get_set_other : forall k k' v l, k <> k' -> obj_get k' (obj_set k v l) = obj_get k' l.
Proof. exact obj_get_set_other. Qed.
Print Assumptions C55_get_set_other.

(** Setting a key keeps the keys distinct and in order. *)
Theorem C55_set_sorted : forall k v l, sorted_keys (map fst l) ->
  sorted_keys (map fst (obj_set k v l)).
Proof. exact obj_set_sorted. Qed.
Print Assumptions C55_set_sorted.

Example C55_example : sorted_keys (map fst [(b "a", JNull); (b "b", JNull)]) /\
  obj_set (b "a") (JInt 1) [(b "a", JNull); (b "b", JNull)] = [(b "a", JInt 1); (b "b", JNull)].
Proof.
  split; [|vm_compute; reflexivity]. cbn [map fst].
  constructor; [|constructor; [|constructor]].
  - intros k' [<-|[]]. vm_compute. reflexivity.
  - intros k' [].
Qed.

(** ** C56: whatever is loaded is a well-formed value *)

Theorem C56_loaded_wf : forall s v, load s = Ok v -> wf_json v.
Proof. exact load_wf. Qed.
Print Assumptions C56_loaded_wf.

Example C56_example : exists v,
  load (b "{ z : 1e400, a : 2, a : [ 0.1 ] }") = Ok v /\
  v = JObj [(b "a", JArr [JFlt (dec_to_dbl false 1 (-1))]); (b "z", JFlt (S754_infinity false))].
Proof. eexists. split; vm_compute; reflexivity. Qed.
