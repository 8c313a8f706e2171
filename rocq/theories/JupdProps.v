(** C76: functions that change JSON values. *)
From Verif Require Import Base JsonModel JsonSpec JsonProofs JupdModel JupdSpec JupdProofs JupdProofs2.

(** ** set *)
(** set(object, path, value): the result has the value at the path, every other path keeps its value and
    no object of the path gets or loses another field; a last key that does not exist is added.
    Partial: not for a path of two or more keys whose last key does not exist (C76_set_refuted). *)
Theorem C76_set_partial keys text x vb l bs : written keys text -> json_wf (JObj l) = true -> Enc (JObj l) bs -> Enc x vb -> json_wf x = true ->
  length keys = 1%nat \/ lookup keys (JObj l) <> None ->
  exists w out, update_set vb bs text = Ok out /\ Enc w out /\ json_wf w = true /\ changed keys x (JObj l) w.
Proof.
  intros Wt W E Ex Wx H. unfold update_set.
  destruct (lookup keys (JObj l)) as [y|] eqn:El.
  - destruct (set_ok vb x Ex Wx keys text l bs [] (length bs) y Wt W E (le_n _) El) as (w & out & S & R). rewrite app_nil_r in S. rewrite S. cbn [bind]. exists w, out. split; [reflexivity|exact R].
  - destruct H as [H|H]; [|congruence]. destruct keys as [|k [|k2 ks]]; try discriminate. cbn [lookup] in El. destruct (field k l) eqn:Ef; [discriminate|]. apply field_none in Ef.
    destruct (set_append vb x Ex Wx k text l bs [] (length bs) Wt W E (le_n _) Ef) as (out & S & R1 & R2). rewrite app_nil_r in S. rewrite S. cbn [bind]. exists (JObj (l ++ [(k, x)])), out. split; [reflexivity|]. split; [exact R1|]. split; [exact R2|]. now apply changed_append.
Qed.
Print Assumptions C76_set_partial.
(** a path through a missing object or through a value that is no object is an error *)
Theorem C76_set_error keys text vb l bs : written keys text -> json_wf (JObj l) = true -> Enc (JObj l) bs -> no_object keys (JObj l) -> update_set vb bs text = Err.
Proof. intros Wt W E N. unfold update_set. pose proof (set_err vb JNull keys text l bs [] (length bs) Wt W E (le_n _) N) as S. rewrite app_nil_r in S. now rewrite S. Qed.
Print Assumptions C76_set_error.

Definition name (c : Z) : list Z := [c].
(** {"a": {"b": 1}, "c": true} *)
Definition doc : list (list Z * json) := [(name 97, JObj [(name 98, JInt 1)]); (name 99, JBool true)].
Definition doc_bytes := json_bytes (JObj doc).
Lemma written_ab : written [name 97; name 98] [97; 46; 98].
Proof. split; [discriminate|]. split; [|now left]. repeat constructor; try discriminate; cbn in H; destruct H as [<-|[]]; lia. Qed.
Lemma written_ac : written [name 97; name 99] [97; 46; 99].
Proof. split; [discriminate|]. split; [|now left]. repeat constructor; try discriminate; cbn in H; destruct H as [<-|[]]; lia. Qed.
Lemma written_cb : written [name 99; name 98] [99; 46; 98].
Proof. split; [discriminate|]. split; [|now left]. repeat constructor; try discriminate; cbn in H; destruct H as [<-|[]]; lia. Qed.
Example C76_set_nonvacuous : written [name 97; name 98] [97; 46; 98] /\ json_wf (JObj doc) = true /\ Enc (JObj doc) doc_bytes /\
  lookup [name 97; name 98] (JObj doc) = Some (JInt 1) /\
  update_set (json_bytes (JInt 2)) doc_bytes [97; 46; 98] = Ok (json_bytes (JObj [(name 97, JObj [(name 98, JInt 2)]); (name 99, JBool true)])) /\
  update_set (json_bytes (JInt 2)) doc_bytes [100] = Ok (json_bytes (JObj (doc ++ [(name 100, JInt 2)]))) /\
  no_object [name 99; name 98] (JObj doc) /\ update_set (json_bytes (JInt 2)) doc_bytes [99; 46; 98] = Err.
Proof.
  split; [exact written_ab|]. split; [reflexivity|]. split; [apply Enc_bytes|]. split; [reflexivity|]. split; [vm_compute; reflexivity|]. split; [vm_compute; reflexivity|].
  assert (N : no_object [name 99; name 98] (JObj doc)) by (exists [name 99], [name 98]; split; [reflexivity|]; split; [discriminate|]; intros l; cbn; discriminate).
  split; [exact N|]. apply (C76_set_error [name 99; name 98] _ _ doc); [exact written_cb|reflexivity|apply Enc_bytes|exact N].
Qed.
(** set({"a": {"b": 1}, "c": true}, "a.c", 2) is {"a": {"b": 1, "c": 2}, "c": true, "a": 2}: the object
    gets a second field "a" *)
Theorem C76_set_refuted : exists keys text x vb l bs, written keys text /\ json_wf (JObj l) = true /\ Enc (JObj l) bs /\ Enc x vb /\ json_wf x = true /\
  ~ no_object keys (JObj l) /\
  update_set vb bs text = Ok (json_bytes (JObj [(name 97, JObj [(name 98, JInt 1); (name 99, JInt 2)]); (name 99, JBool true); (name 97, JInt 2)])) /\
  forall w out, update_set vb bs text = Ok out -> Enc w out -> json_wf w = true -> json_reals_exact w = true -> ~ changed keys x (JObj l) w.
Proof.
  exists [name 97; name 99], [97; 46; 99], (JInt 2), (json_bytes (JInt 2)), doc, doc_bytes. split; [exact written_ac|]. split; [reflexivity|]. split; [apply Enc_bytes|]. split; [apply Enc_bytes|]. split; [reflexivity|].
  split. { intros (q & r & E & N & H). destruct q as [|a [|b q]]; cbn [app] in E.
    - eapply H; reflexivity.
    - injection E as <- E. eapply H; cbn; reflexivity.
    - injection E as _ _ E. symmetry in E. apply app_eq_nil in E. destruct E as (_ & E). now apply N. }
  assert (U : update_set (json_bytes (JInt 2)) doc_bytes [97; 46; 99] = Ok (json_bytes (JObj [(name 97, JObj [(name 98, JInt 1); (name 99, JInt 2)]); (name 99, JBool true); (name 97, JInt 2)]))) by (vm_compute; reflexivity).
  split; [exact U|]. intros w out E Ew Ww Rw (_ & _ & C). rewrite U in E. injection E as <-.
  assert (X : w = JObj [(name 97, JObj [(name 98, JInt 1); (name 99, JInt 2)]); (name 99, JBool true); (name 97, JInt 2)]) by (eapply Enc_inj; [exact Ww|reflexivity|exact Rw|reflexivity|exact Ew|apply Enc_bytes]).
  subst w. specialize (C [] (name 97) [name 99] eq_refl). vm_compute in C. discriminate C.
Qed.
Print Assumptions C76_set_refuted.

(** a path that is empty, or whose first key is empty or has a blank (9..13, 32) in it, is an error of both functions *)
Theorem C76_path_error text vb json : json <> [] ->
  text = [] \/ (exists r, text = 46 :: r) \/ (exists k ch r, text = k ++ ch :: r /\ ~ In 46 k /\ (ch = 32 \/ 9 <= ch <= 13)) ->
  update_set vb json text = Err /\ update_unset json text = Err.
Proof.
  intros J H. assert (R : update_read text = Err).
  { destruct H as [->|[(r & ->)|(k & ch & r & -> & N & Hc)]]; [reflexivity|reflexivity|]. unfold update_read.
    assert (K : read_key (k ++ ch :: r) = Err).
    { induction k as [|x k IH]; cbn [app read_key].
      - replace (ch =? DOT) with false by (symmetry; apply Z.eqb_neq; unfold DOT; lia). replace (isspace ch) with true; [reflexivity|]. symmetry. unfold isspace. destruct Hc as [->|Hc]; [reflexivity|].
        replace (9 <=? ch) with true by (symmetry; apply Z.leb_le; lia). replace (ch <=? 13) with true by (symmetry; apply Z.leb_le; lia). apply orb_true_r.
      - replace (x =? DOT) with false by (symmetry; apply Z.eqb_neq; unfold DOT; intros ->; apply N; now left). destruct (isspace x); [reflexivity|]. rewrite IH; [reflexivity|]. intros X. apply N. now right. }
    rewrite K. destruct (update_has _); reflexivity. }
  unfold update_set, update_unset. destruct json as [|b json]; [congruence|]. cbn [length set_obj unset_obj]. rewrite R. split; reflexivity.
Qed.
Print Assumptions C76_path_error.
Example C76_path_error_nonvacuous : update_set (json_bytes (JInt 2)) doc_bytes [46; 97] = Err /\ update_unset doc_bytes [97; 32] = Err.
Proof. split; vm_compute; reflexivity. Qed.

(** ** unset *)
(** unset(object, path): nothing is at the path, every other path keeps its value, no other field is lost;
    a path that does not exist changes nothing.  Partial: if no name is used twice in the objects the
    path leads through (C76_unset_refuted). *)
Theorem C76_unset_partial keys text l bs : written keys text -> json_wf (JObj l) = true -> Enc (JObj l) bs ->
  ~ through_value keys (JObj l) -> distinct_names keys (JObj l) ->
  exists w out, update_unset bs text = Ok out /\ Enc w out /\ json_wf w = true /\ removed keys (JObj l) w.
Proof.
  intros Wt W E Nt Nd. unfold update_unset. destruct (unset_ok keys text l bs [] (length bs) Wt W E (le_n _) Nt Nd) as (w & out & path & S & R). rewrite app_nil_r in S. rewrite S. cbn [bind]. exists w, out. split; [reflexivity|exact R].
Qed.
Print Assumptions C76_unset_partial.
Theorem C76_unset_error keys text l bs : written keys text -> json_wf (JObj l) = true -> Enc (JObj l) bs -> through_value keys (JObj l) -> update_unset bs text = Err.
Proof. intros Wt W E N. unfold update_unset. pose proof (unset_err keys text l bs [] (length bs) Wt W E (le_n _) N) as S. rewrite app_nil_r in S. now rewrite S. Qed.
Print Assumptions C76_unset_error.
Example C76_unset_nonvacuous : ~ through_value [name 97; name 98] (JObj doc) /\ distinct_names [name 97; name 98] (JObj doc) /\
  update_unset doc_bytes [97; 46; 98] = Ok (json_bytes (JObj [(name 97, JObj []); (name 99, JBool true)])) /\
  update_unset doc_bytes [97; 46; 99] = Ok doc_bytes /\
  through_value [name 99; name 98] (JObj doc) /\ update_unset doc_bytes [99; 46; 98] = Err.
Proof.
  split. { intros (q & r & y & E & N & L & H). destruct q as [|a [|b [|c q]]]; cbn [app] in E; try (injection E as <- E); try (injection E as <- E); try discriminate; [injection L as <-; now apply (H doc)|cbn in L; injection L as <-; now apply (H [(name 98, JInt 1)])|destruct r; [congruence|discriminate]]. }
  split. { intros q r k l E N L. destruct q as [|a [|b q]]; cbn [app] in E; try (injection E as <- E); try (injection E as <- E).
    - injection L as <-. cbn. repeat constructor; cbn; intuition discriminate.
    - congruence.
    - destruct q; discriminate. }
  split; [vm_compute; reflexivity|]. split; [vm_compute; reflexivity|]. split; [|vm_compute; reflexivity]. exists [name 99], [name 98], (JBool true). split; [reflexivity|]. split; [discriminate|]. split; [reflexivity|discriminate].
Qed.
(** unset({"a": {"b": 1}, "a": {"c": 2}}, "a.b") is {"a": {}}: the second field is lost *)
Theorem C76_unset_refuted : exists keys text l bs, written keys text /\ json_wf (JObj l) = true /\ Enc (JObj l) bs /\ ~ through_value keys (JObj l) /\
  update_unset bs text = Ok (json_bytes (JObj [(name 97, JObj [])])) /\
  forall w out, update_unset bs text = Ok out -> Enc w out -> json_wf w = true -> json_reals_exact w = true -> ~ removed keys (JObj l) w.
Proof.
  set (l := [(name 97, JObj [(name 98, JInt 1)]); (name 97, JObj [(name 99, JInt 2)])]).
  exists [name 97; name 98], [97; 46; 98], l, (json_bytes (JObj l)). split; [exact written_ab|]. split; [reflexivity|]. split; [apply Enc_bytes|].
  split. { intros (q & r & y & E & N & L & H). destruct q as [|a [|b [|c q]]]; cbn [app] in E; try (injection E as <- E); try (injection E as <- E); try discriminate; [injection L as <-; now apply (H l)|cbn in L; injection L as <-; now apply (H [(name 98, JInt 1)])|destruct r; [congruence|discriminate]]. }
  assert (U : update_unset (json_bytes (JObj l)) [97; 46; 98] = Ok (json_bytes (JObj [(name 97, JObj [])]))) by (vm_compute; reflexivity).
  split; [exact U|]. intros w out E Ew Ww Rw (_ & _ & C). rewrite U in E. injection E as <-.
  assert (X : w = JObj [(name 97, JObj [])]) by (eapply Enc_inj; [exact Ww|reflexivity|exact Rw|reflexivity|exact Ew|apply Enc_bytes]).
  subst w. specialize (C [] (name 97) [name 98] eq_refl). vm_compute in C. discriminate C.
Qed.
Print Assumptions C76_unset_refuted.

(** ** arrays *)
(** append, push, pop and pop_back of an array *)
Theorem C76_arrays l bs vs vbs : json_wf (JArr l) = true -> Enc (JArr l) bs -> Forall2 Enc vs vbs ->
  Enc (JArr (l ++ vs)) (value_array_append bs vbs) /\ Enc (JArr (vs ++ l)) (value_array_push bs vbs) /\
  (exists out, value_array_pop bs = Ok out /\ Enc (JArr (tl l)) out) /\
  (exists out, value_array_pop_back bs = Ok out /\ Enc (JArr (removelast l)) out).
Proof. intros W E V. split; [now apply append_ok|]. split; [now apply push_ok|]. split; [now apply pop_ok|now apply pop_back_ok]. Qed.
Print Assumptions C76_arrays.
(** put and remove of an item, an error if there is none.  Partial: the index is an int32. *)
Theorem C76_put_partial l bs idx x vb : json_wf (JArr l) = true -> Enc (JArr l) bs -> Enc x vb -> -2147483648 <= idx <= 2147483647 ->
  if (0 <=? idx) && (idx <? Z.of_nat (length l))
  then exists out, value_array_put bs idx vb = Ok out /\ Enc (JArr (firstn (Z.to_nat idx) l ++ x :: skipn (S (Z.to_nat idx)) l)) out
  else value_array_put bs idx vb = Err.
Proof. apply put_ok. Qed.
Print Assumptions C76_put_partial.
Theorem C76_remove_partial l bs idx : json_wf (JArr l) = true -> Enc (JArr l) bs -> -2147483648 <= idx <= 2147483647 ->
  if (0 <=? idx) && (idx <? Z.of_nat (length l))
  then exists out, value_array_remove bs idx = Ok out /\ Enc (JArr (firstn (Z.to_nat idx) l ++ skipn (S (Z.to_nat idx)) l)) out
  else value_array_remove bs idx = Err.
Proof. apply remove_ok. Qed.
Print Assumptions C76_remove_partial.
Example C76_arrays_nonvacuous : let bs := json_bytes (JArr [JInt 1; JNull; JArr [JInt 5]]) in
  value_array_pop_back bs = Ok (json_bytes (JArr [JInt 1; JNull])) /\ value_array_pop bs = Ok (json_bytes (JArr [JNull; JArr [JInt 5]])) /\
  value_array_put bs 2 (json_bytes (JStr [120])) = Ok (json_bytes (JArr [JInt 1; JNull; JStr [120]])) /\ value_array_remove bs 0 = Ok (json_bytes (JArr [JNull; JArr [JInt 5]])) /\ value_array_put bs 3 [] = Err.
Proof. repeat split; vm_compute; reflexivity. Qed.
(** an index of 4294967296 (and more) is not an error but item 0 *)
Theorem C76_index_refuted : exists l bs idx x vb, json_wf (JArr l) = true /\ Enc (JArr l) bs /\ Enc x vb /\ INT64_MIN <= idx <= INT64_MAX /\ Z.of_nat (length l) <= idx /\
  value_array_put bs idx vb = Ok (json_bytes (JArr [x])) /\ value_array_remove bs idx = Ok (json_bytes (JArr [])).
Proof.
  exists [JInt 1], (json_bytes (JArr [JInt 1])), 4294967296, (JInt 7), (json_bytes (JInt 7)). split; [reflexivity|]. split; [apply Enc_bytes|]. split; [apply Enc_bytes|]. split; [unfold INT64_MIN, INT64_MAX; lia|]. split; [cbn; lia|]. split; vm_compute; reflexivity.
Qed.
Print Assumptions C76_index_refuted.
