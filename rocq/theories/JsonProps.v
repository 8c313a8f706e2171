(** Property theorems of the binary JSON format: C25, C26, C27, C28. *)
From Verif Require Import Base OrderLib JsonModel JsonSpec JsonProofs JsonOrder.

(** ** C25: what is stored is what is read back; skipping never runs off the value.
    Every stored form of a value (a string may be stored in two forms) followed by any
    bytes is read back as that value and leaves exactly those bytes; json_skip stops
    at the same place; no read is out of bounds (the result is never UB). *)
Theorem C25_json_roundtrip : forall v bs rest,
  json_wf v = true -> json_reals_exact v = true -> Enc v bs ->
  json_read (length bs) (bs ++ rest) = Ok (v, rest) /\ json_skip (bs ++ rest) = Ok rest.
Proof. exact (fun v bs rest H1 H2 H3 => conj (json_roundtrip v bs rest H1 H2 H3) (json_skip_ok v bs rest H1 H3)). Qed.
Print Assumptions C25_json_roundtrip.

(** with arbitrary reals everything but the reals' low mantissa bits survives *)
Theorem C25_json_structure : forall v bs rest,
  json_wf v = true -> Enc v bs ->
  json_read (length bs) (bs ++ rest) = Ok (json_stored v, rest) /\ json_skip (bs ++ rest) = Ok rest.
Proof. exact (fun v bs rest H1 H3 =>
  conj (json_read_ok v bs rest (length bs) H1 H3 (le_n _)) (json_skip_ok v bs rest H1 H3)). Qed.
Print Assumptions C25_json_structure.

(** every value has a stored form, and a stored form determines the value *)
Theorem C25_json_stored_form : forall v, Enc v (json_bytes v).
Proof. exact Enc_bytes. Qed.
Print Assumptions C25_json_stored_form.
Theorem C25_json_injective : forall v w bs,
  json_wf v = true -> json_wf w = true -> json_reals_exact v = true -> json_reals_exact w = true ->
  Enc v bs -> Enc w bs -> v = w.
Proof. exact Enc_inj. Qed.
Print Assumptions C25_json_injective.

(** {"a": [null, -5, 300, 2.5], "bc": {}, "d": "xy"} *)
Definition sample : json :=
  JObj [([97], JArr [JNull; JInt (-5); JInt 300; JReal 4612811918334230528; JBool true]);
        ([98; 99], JObj []); ([100], JStr [120; 121])].
Example C25_nonvacuous : json_wf sample = true /\ json_reals_exact sample = true
  /\ Enc sample (json_bytes sample) /\ (20 < length (json_bytes sample))%nat
  /\ Enc (JStr [120]) (json_write_wide [120]) /\ json_write_wide [120] <> json_bytes (JStr [120]).
Proof.
  repeat apply conj; try (vm_compute; reflexivity).
  - apply C25_json_stored_form.
  - vm_compute. lia.
  - unfold Enc. cbn [toks]. rewrite <- (app_nil_r (json_write_wide [120])).
    apply te_cons; [cbn; auto|apply te_nil].
  - vm_compute. discriminate.
Qed.

(** ** C26: storing a real in JSON keeps its value.  False: the real 0.1 is read
    back as another number (0.10000000149011612).  The pattern is the IEEE double
    nearest to 0.1. *)
Theorem C26_json_real_refuted : exists b, 0 <= b < 2 ^ 64 /\ dbl_is_nan b = false /\
  exists b', json_read_real (json_write_real b) = Ok (b', []) /\ dbl_key b' <> dbl_key b.
Proof.
  exists 4591870180066957722. split; [lia|]. split; [reflexivity|].
  exists 4591870180174331904. split; [vm_compute; reflexivity|vm_compute; discriminate].
Qed.
Print Assumptions C26_json_real_refuted.

(** the exact criterion: a real survives iff it is outside the positive single
    precision range or its low 29 mantissa bits are zero *)
Theorem C26_json_real_partial : forall b rest, 0 <= b < 2 ^ 64 ->
  (json_read_real (json_write_real b ++ rest) = Ok (b, rest) <->
   real_fits_float b = false \/ b mod 2 ^ 29 = 0).
Proof. exact real_survives_iff. Qed.
Print Assumptions C26_json_real_partial.
Example C26_nonvacuous : (* 2.5 survives; -0.1 survives although 0.1 does not *)
  4612811918334230528 mod 2 ^ 29 = 0 /\ real_fits_float (4591870180066957722 + 2 ^ 63) = false /\
  real_fits_float 4591870180066957722 = true /\ 4591870180066957722 mod 2 ^ 29 <> 0.
Proof. repeat split; vm_compute; discriminate. Qed.

(** ** C27: comparison of stored JSON values is a total order compatible with
    equality.  [mag] is what memcmp returns for two differing bytes. *)
Theorem C27_json_compare_order : forall mag, memcmp_ok mag ->
  forall u v w bu bv bw ru rv rw,
  json_wf u = true -> json_wf v = true -> json_wf w = true ->
  json_no_nan u = true -> json_no_nan v = true -> json_no_nan w = true ->
  Enc u bu -> Enc v bv -> Enc w bw ->
  exists uv vu vw uw,
    json_compare mag (bu ++ ru) (bv ++ rv) = Ok uv /\
    json_compare mag (bv ++ rv) (bu ++ ru) = Ok vu /\
    json_compare mag (bv ++ rv) (bw ++ rw) = Ok vw /\
    json_compare mag (bu ++ ru) (bw ++ rw) = Ok uw /\
    (u = v -> uv = 0) /\
    Z.sgn vu = - Z.sgn uv /\
    (uv <= 0 -> vw <= 0 -> uw <= 0) /\
    (json_no_reals u = true -> json_no_reals v = true -> uv = 0 -> u = v).
Proof. exact json_compare_laws. Qed.
Print Assumptions C27_json_compare_order.
Example C27_nonvacuous : memcmp_ok Z.sub /\
  json_compare Z.sub (json_bytes sample) (json_bytes sample) = Ok 0 /\
  (exists c, json_compare Z.sub (json_bytes (JArr [JInt 1; JInt 2])) (json_bytes (JArr [JInt 1; JStr [97]])) = Ok c /\ c < 0) /\
  json_no_nan sample = true.
Proof.
  split; [intros x y; reflexivity|]. split; [vm_compute; reflexivity|]. split; [|vm_compute; reflexivity].
  eexists; split; [vm_compute; reflexivity|lia].
Qed.

(** ** C28: field and element lookup *)
Theorem C28_json_obj_find : forall name l bs rest,
  json_wf (JObj l) = true -> Enc (JObj l) bs ->
  match field name l with
  | Some v => exists bv tail, Enc v bv /\ json_obj_find name (bs ++ rest) = Ok (true, bv ++ tail)
  | None => json_obj_find name (bs ++ rest) = Ok (false, rest)
  end.
Proof. exact obj_find_ok. Qed.
Print Assumptions C28_json_obj_find.
Theorem C28_json_array_find : forall position l bs rest,
  json_wf (JArr l) = true -> Enc (JArr l) bs -> 0 <= position ->
  match nth_error l (Z.to_nat position) with
  | Some v => exists bv tail, Enc v bv /\ json_array_find position (bs ++ rest) = Ok (true, bv ++ tail)
  | None => json_array_find position (bs ++ rest) = Ok (false, rest)
  end.
Proof. exact array_find_ok. Qed.
Print Assumptions C28_json_array_find.
Theorem C28_json_array_size : forall l bs rest,
  json_wf (JArr l) = true -> Enc (JArr l) bs ->
  json_array_size (bs ++ rest) = Ok (Z.of_nat (length l)).
Proof. exact array_size_ok. Qed.
Print Assumptions C28_json_array_size.
Example C28_nonvacuous :
  json_obj_find [98; 99] (json_bytes sample) =
    Ok (true, json_bytes (JObj []) ++ json_bytes (JStr [100]) ++ json_bytes (JStr [120; 121]) ++ [JSON_OBJ_END])
  /\ json_obj_find [98] (json_bytes sample) = Ok (false, []).
Proof. split; vm_compute; reflexivity. Qed.
