(** C39: LIKE; C50: UTF-8; C62: string functions. *)
From Verif Require Import Base CodecProps Utf8Model Utf8Spec Utf8Proofs.
Local Open Scope Z_scope.

(** ** C50 *)
(** the decoder is the inverse of the encoding: every code point of up to 21 bits is decoded from
    its bytes, nothing else is accepted, and no byte behind the end is read *)
Theorem C50_decode_partial s : bytes_ok s = true -> s <> [] ->
  (forall c r, utf8_next s = Ok (Some c, r) <-> code c /\ s = utf8 c ++ r) /\ utf8_next s <> UB /\ (forall r, utf8_next s = Ok (None, r) -> r = s).
Proof.
  intros B N. split; [|split; [now apply next_safe|]].
  - intros c r. split; [now apply next_inv|]. intros [Hc ->]. now apply next_enc.
  - intros r H. rewrite next_eq in H. destruct s as [|b s]; [contradiction|]. cbv zeta in H.
    repeat match type of H with (if ?c then _ else _) = _ => destruct c end; congruence.
Qed.
Print Assumptions C50_decode_partial.
(** a string is accepted exactly if it is the text of code points, and its length in characters
    is their number *)
Theorem C50_valid_partial s : bytes_ok s = true ->
  (utf8_valid (S (length s)) s = Ok true <-> exists l, codes l /\ s = text l) /\ utf8_valid (S (length s)) s <> UB /\
  (forall l, codes l -> s = text l -> utf8_strlen s = Z.of_nat (length l)).
Proof.
  intros B. split; [split|split].
  - now apply valid_inv.
  - intros (l & H & ->). apply valid_text; [exact H|]. pose proof (text_len l H). lia.
  - apply valid_total; [exact B|lia].
  - intros l H ->. now apply strlen_text.
Qed.
Print Assumptions C50_valid_partial.
(** every Unicode text is accepted *)
Lemma scalar_code c : scalar c -> code c.
Proof. unfold scalar, code. lia. Qed.
Theorem C50_unicode_accepted l : Forall scalar l -> utf8_valid (S (length (text l))) (text l) = Ok true /\ utf8_strlen (text l) = Z.of_nat (length l).
Proof.
  intros H. assert (codes l) as C by (eapply Forall_impl; [|exact H]; apply scalar_code). split; [|now apply strlen_text].
  apply valid_text; [exact C|]. pose proof (text_len l C). lia.
Qed.
Print Assumptions C50_unicode_accepted.
(** but also surrogates and code points above 10FFFF: bytes that are not well-formed UTF-8 *)
Theorem C50_ill_formed_refuted : exists s1 s2, utf8_valid (S (length s1)) s1 = Ok true /\ utf8_valid (S (length s2)) s2 = Ok true /\
  (forall l, Forall scalar l -> s1 <> text l) /\ (forall l, Forall scalar l -> s2 <> text l).
Proof.
  exists (text [55296]), (text [1114112]). split; [vm_compute; reflexivity|]. split; [vm_compute; reflexivity|].
  split; intros l H E; (assert (codes l) as C by (eapply Forall_impl; [|exact H]; apply scalar_code));
    apply text_inj in E; try exact C; try (repeat constructor; unfold code; lia); subst l; inversion H as [|? ? S _]; unfold scalar in S; lia.
Qed.
Print Assumptions C50_ill_formed_refuted.
Example C50_nonvacuous : text [97; 233; 8364; 128512] = [97; 195; 169; 226; 130; 172; 240; 159; 152; 128] /\ codes [97; 233; 8364; 128512] /\
  utf8_valid 11 (text [97; 233; 8364; 128512]) = Ok true /\ utf8_strlen (text [97; 233; 8364; 128512]) = 4 /\
  utf8_valid 3 [192; 128] = Ok false /\ utf8_valid 3 [226; 130] = Ok false.
Proof. split; [reflexivity|]. split; [repeat constructor; unfold code; lia|]. vm_compute. auto. Qed.

(** ** C39 *)
Lemma head_ascii c b t k : code c -> utf8 c = b :: t -> 0 <= k < 128 -> (b =? k) = (c =? k).
Proof.
  intros Hc E Hk. destruct (utf8_cases c Hc) as [(H & E2)|[(H & E2 & Hb & _)|[(H & E2 & Hb & _)|(H & E2 & Hb & _)]]]; rewrite E2 in E; apply (f_equal (hd 0)) in E; cbn [hd] in E; subst b; [reflexivity|..]; rewrite (proj2 (Z.eqb_neq c k)) by lia; apply Z.eqb_neq; lia.
Qed.
(** the code on code points *)
Fixpoint skip_c (p : list Z) : list Z := match p with c :: p' => if (c =? 37) || (c =? 95) then skip_c p' else p | [] => [] end.
Fixpoint find_c (c : Z) (s : list Z) : option (list Z) := match s with [] => None | d :: r => if c =? d then Some r else find_c c r end.
Fixpoint loop_c (fuel : nat) (s p : list Z) : res bool :=
  match fuel with
  | O => UB
  | S f =>
    match p with
    | [] => Ok (match s with [] => true | _ => false end)
    | b :: p' =>
      if b =? 95 then match s with [] => Ok false | _ :: r => loop_c f r p' end
      else if b =? 37 then
        match skip_c p with
        | [] => Ok true
        | b2 :: q =>
          match (if b2 =? 92 then q else b2 :: q) with
          | [] => Ok false
          | c :: q3 => match find_c c s with None => Ok false | Some r => loop_c f r q3 end
          end
        end
      else
        match s with
        | [] => Ok false
        | d :: r =>
          match (if b =? 92 then p' else p) with
          | [] => UB
          | c :: q => if c =? d then loop_c f r q else Ok false
          end
        end
    end
  end.
Lemma skip_text p : codes p -> like_skip (text p) = text (skip_c p).
Proof.
  induction 1 as [|c p Hc H IH]; [reflexivity|]. rewrite text_cons. destruct (utf8_nonempty c Hc) as (b & t & E & Hb & N & F & Sz). rewrite E. cbn [app like_skip skip_c].
  rewrite (head_ascii c b t 37 Hc E), (head_ascii c b t 95 Hc E) by lia.
  destruct ((c =? 37) || (c =? 95)) eqn:Ec; [|rewrite text_cons, E; reflexivity].
  assert (t = []) as ->; [|exact IH]. unfold utf8 in E. destruct (Z.ltb_spec c 128); [now injection E|lia].
Qed.
Lemma find_text c s : code c -> codes s -> forall fuel, (length s < fuel)%nat ->
  like_find fuel (utf8 c) (text s) = Ok (match find_c c s with Some r => Some (text r) | None => None end).
Proof.
  intros Hc. induction 1 as [|d s Hd H IH]; intros fuel L; (destruct fuel as [|f]; [lia|]); [reflexivity|]. cbn [like_find find_c].
  replace (match text (d :: s) with [] => Ok None | _ :: _ => _ end) with (do (x, r) <- take_char (text (d :: s)); if bytes_eqb (utf8 c) x then Ok (Some r) else like_find f (utf8 c) r).
  - rewrite text_cons, take_enc by exact Hd. cbn [bind]. rewrite chars_eqb by assumption. destruct (c =? d); [reflexivity|]. apply IH. cbn in L. lia.
  - destruct (utf8_nonempty d Hd) as (b & t & E & _). rewrite text_cons, E. reflexivity.
Qed.
Lemma find_codes c s r : codes s -> find_c c s = Some r -> codes r.
Proof. induction 1 as [|d s Hd H IH]; cbn; [discriminate|]. destruct (c =? d); [intros [= <-]; exact H|exact IH]. Qed.
Lemma skip_codes p : codes p -> codes (skip_c p).
Proof. induction 1 as [|c p Hc H IH]; cbn; [constructor|]. destruct (_ || _); [exact IH|constructor; assumption]. Qed.
Lemma skip_len p : (length (skip_c p) <= length p)%nat.
Proof. induction p as [|c p IH]; cbn; [lia|]. destruct (_ || _); cbn; lia. Qed.
Lemma utf8_cons_text c p : code c -> exists b t, utf8 c ++ text p = b :: t ++ text p /\ utf8 c = b :: t.
Proof. intros Hc. destruct (utf8_nonempty c Hc) as (b & t & E & _). exists b, t. rewrite E. auto. Qed.
Lemma ascii_text c p b t : code c -> utf8 c = b :: t -> c < 128 -> t ++ text p = text p.
Proof. intros Hc E L. unfold utf8 in E. destruct (Z.ltb_spec c 128); [|lia]. injection E as _ <-. reflexivity. Qed.
Lemma loop_text fuel : forall s p, codes s -> codes p -> like_loop fuel (text s) (text p) = loop_c fuel s p.
Proof.
  induction fuel as [|f IH]; intros s p Hs Hp; [reflexivity|].
  destruct p as [|c p]; [cbn [like_loop loop_c text flat_map]; now rewrite text_match|]. inversion Hp as [|? ? Hc Hp']; subst.
  destruct (utf8_cons_text c p Hc) as (b & t & E1 & E2). rewrite text_cons at 1. rewrite E1. cbn [like_loop loop_c]. rewrite <- E1, <- text_cons.
  rewrite (head_ascii c b t 95 Hc E2), (head_ascii c b t 37 Hc E2), (head_ascii c b t 92 Hc E2) by lia.
  destruct (Z.eqb_spec c 95) as [->|N95].
  { rewrite (ascii_text 95 p b t Hc E2) by lia. destruct s as [|d s]; [reflexivity|]. inversion Hs as [|? ? Hd Hs']; subst.
    replace (match text (d :: s) with [] => Ok false | _ :: _ => _ end) with (do r <- utf8_forward (text (d :: s)); like_loop f r (text p)).
    - rewrite forward_text by exact Hd. cbn [bind]. now apply IH.
    - destruct (utf8_nonempty d Hd) as (x & y & E & _). rewrite text_cons, E. reflexivity. }
  destruct (Z.eqb_spec c 37) as [->|N37].
  { rewrite skip_text by (constructor; assumption). assert (Hq : codes (skip_c (37 :: p))) by (apply skip_codes; constructor; assumption).
    destruct (skip_c (37 :: p)) as [|c2 q]; [reflexivity|]. inversion Hq as [|? ? Hc2 Hq']; subst.
    destruct (utf8_cons_text c2 q Hc2) as (b2 & t2 & E3 & E4). rewrite text_cons, E3. rewrite (head_ascii c2 b2 t2 92 Hc2 E4) by lia.
    assert (Eq2 : (if c2 =? 92 then t2 ++ text q else b2 :: t2 ++ text q) = text (if c2 =? 92 then q else c2 :: q)).
    { destruct (Z.eqb_spec c2 92) as [->|]; [now apply (ascii_text 92 q b2)|]. now rewrite text_cons, E3. }
    rewrite Eq2. assert (Hq2 : codes (if c2 =? 92 then q else c2 :: q)) by (destruct (c2 =? 92); [exact Hq'|constructor; assumption]).
    destruct (if c2 =? 92 then q else c2 :: q) as [|c3 q3]; [reflexivity|]. inversion Hq2 as [|? ? Hc3 Hq3]; subst.
    replace (match text (c3 :: q3) with [] => Ok false | _ :: _ => _ end) with
      (do (c, q4) <- take_char (text (c3 :: q3)); do m <- like_find (S (length (text s))) c (text s); match m with None => Ok false | Some r => like_loop f r q4 end).
    - rewrite text_cons, take_enc by exact Hc3. cbn [bind]. rewrite find_text; [|exact Hc3|exact Hs|pose proof (text_len s Hs); lia]. cbn [bind].
      destruct (find_c c3 s) as [r|] eqn:Er; [|reflexivity]. apply IH; [exact (find_codes _ _ _ Hs Er)|exact Hq3].
    - destruct (utf8_nonempty c3 Hc3) as (x & y & E & _). rewrite text_cons, E. reflexivity. }
  destruct s as [|d s]; [reflexivity|]. inversion Hs as [|? ? Hd Hs']; subst.
  assert (Ep2 : (if c =? 92 then t ++ text p else text (c :: p)) = text (if c =? 92 then p else c :: p)).
  { destruct (Z.eqb_spec c 92) as [->|]; [now apply (ascii_text 92 p b)|reflexivity]. }
  rewrite Ep2. assert (Hp2 : codes (if c =? 92 then p else c :: p)) by (destruct (c =? 92); assumption).
  replace (match text (d :: s) with [] => Ok false | _ :: _ => _ end) with
    (do (d, r) <- take_char (text (d :: s)); do (c, q) <- take_char (text (if c =? 92 then p else c :: p)); if bytes_eqb c d then like_loop f r q else Ok false).
  - rewrite text_cons at 1. rewrite take_enc by exact Hd. cbn [bind]. destruct (if c =? 92 then p else c :: p) as [|c3 q3]; [reflexivity|]. inversion Hp2 as [|? ? Hc3 Hq3]; subst.
    rewrite text_cons at 1. rewrite take_enc by exact Hc3. cbn [bind]. rewrite chars_eqb by assumption. destruct (c3 =? d); [|reflexivity]. now apply IH.
  - destruct (utf8_nonempty d Hd) as (x & y & E & _). rewrite text_cons, E. reflexivity.
Qed.
(** the code on the tokens of the pattern *)
Fixpoint skip_t (ts : list tok) : list tok := match ts with Any :: t | One :: t => skip_t t | _ => ts end.
Fixpoint run (fuel : nat) (ts : list tok) (s : list Z) : bool :=
  match fuel with
  | O => false
  | S f =>
    match ts with
    | [] => match s with [] => true | _ => false end
    | One :: ts' => match s with [] => false | _ :: r => run f ts' r end
    | Any :: ts' =>
      match skip_t ts' with
      | Char c :: ts2 => match find_c c s with None => false | Some r => run f ts2 r end
      | _ => true
      end
    | Char c :: ts' => match s with [] => false | d :: r => (c =? d) && run f ts' r end
    end
  end.
Lemma tokens_cons c p : tokens (c :: p) =
  if c =? 37 then option_map (cons Any) (tokens p) else if c =? 95 then option_map (cons One) (tokens p)
  else if c =? 92 then match p with [] => None | d :: p' => option_map (cons (Char d)) (tokens p') end
  else option_map (cons (Char c)) (tokens p).
Proof.
  destruct (Z.eqb_spec c 37) as [->|]; [reflexivity|]. destruct (Z.eqb_spec c 95) as [->|]; [reflexivity|]. destruct (Z.eqb_spec c 92) as [->|]; [destruct p; reflexivity|].
  cbn [tokens]. destruct c as [|q|q]; try reflexivity. repeat (destruct q as [q|q|]; try reflexivity; try contradiction).
Qed.
Lemma tokens_skip p ts : tokens p = Some ts -> tokens (skip_c p) = Some (skip_t ts).
Proof.
  revert ts. induction p as [|c p IH]; intros ts H; [injection H as <-; reflexivity|]. rewrite tokens_cons in H. cbn [skip_c].
  destruct (Z.eqb_spec c 37) as [->|]; [|destruct (Z.eqb_spec c 95) as [->|]]; cbn [orb].
  1, 2: destruct (tokens p) as [t|]; [|discriminate]; injection H as <-; cbn [skip_t]; now apply IH.
  rewrite tokens_cons. rewrite (proj2 (Z.eqb_neq c 37)), (proj2 (Z.eqb_neq c 95)) by assumption. rewrite H.
  destruct (c =? 92); [destruct p as [|d p]; [discriminate|]; destruct (tokens p); [|discriminate]|destruct (tokens p); [|discriminate]]; injection H as <-; reflexivity.
Qed.
Lemma skip_c_first p c q : skip_c p = c :: q -> c <> 37 /\ c <> 95.
Proof. induction p as [|x p IH]; cbn; [discriminate|]. destruct (Z.eqb_spec x 37), (Z.eqb_spec x 95); cbn; auto. intros [= <- <-]. auto. Qed.
Lemma skip_t_len ts : (length (skip_t ts) <= length ts)%nat.
Proof. induction ts as [|[| |c] ts IH]; cbn; lia. Qed.
Lemma tokens_len p : forall n, (length p <= n)%nat -> forall ts, tokens p = Some ts -> (length ts <= length p)%nat.
Proof.
  intros n. revert p. induction n as [|n IH]; intros p L ts H; (destruct p as [|c p]; [injection H as <-; cbn; lia|]); [cbn in L; lia|].
  rewrite tokens_cons in H. cbn [length] in *. destruct (c =? 37); [|destruct (c =? 95); [|destruct (c =? 92)]].
  3: destruct p as [|d p]; [discriminate|]; cbn [length] in *.
  all: destruct (tokens p) as [t|] eqn:E; [|discriminate]; injection H as <-; apply IH in E; [cbn; lia|lia].
Qed.
Lemma loop_run fuel : forall s p ts, tokens p = Some ts -> (length p < fuel)%nat -> forall f2, (length ts < f2)%nat -> loop_c fuel s p = Ok (run f2 ts s).
Proof.
  induction fuel as [|f IH]; intros s p ts H L f2 L2; [lia|]. destruct f2 as [|f2]; [lia|].
  destruct p as [|c p]; [injection H as <-; reflexivity|]. cbn [loop_c]. pose proof (tokens_skip _ _ H) as Hk. rewrite tokens_cons in H. cbn [length] in L.
  destruct (Z.eqb_spec c 37) as [->|N37].
  { cbn [Z.eqb Pos.eqb]. destruct (tokens p) as [t|] eqn:Et; [|discriminate]. injection H as <-. cbn [run skip_t] in *. cbn [length] in L2.
    pose proof (skip_len (37 :: p)) as Lk. cbn [skip_c] in Lk. change ((37 =? 37) || (37 =? 95)) with true in Lk. cbv iota in Lk.
    destruct (skip_c (37 :: p)) as [|c2 q] eqn:Es.
    - injection Hk as Hk. rewrite <- Hk. reflexivity.
    - pose proof (skip_c_first _ _ _ Es) as [A B]. assert (Lq : (S (length q) <= length p)%nat).
      { pose proof (skip_len p) as X. cbn [skip_c] in Es. change ((37 =? 37) || (37 =? 95)) with true in Es. cbv iota in Es. rewrite Es in X. exact X. }
      rewrite tokens_cons in Hk. rewrite (proj2 (Z.eqb_neq c2 37) A), (proj2 (Z.eqb_neq c2 95) B) in Hk. pose proof (skip_t_len t) as Lt.
      destruct (c2 =? 92).
      + destruct q as [|d q]; [discriminate|]. destruct (tokens q) as [tq|] eqn:Etq; [|discriminate]. injection Hk as Hk. rewrite <- Hk in *. destruct (find_c d s) as [r|]; [|reflexivity].
        cbn [length] in *. apply IH; [exact Etq|lia|lia].
      + destruct (tokens q) as [tq|] eqn:Etq; [|discriminate]. injection Hk as Hk. rewrite <- Hk in *. destruct (find_c c2 s) as [r|]; [|reflexivity].
        cbn [length] in *. apply IH; [exact Etq|lia|lia]. }
  destruct (Z.eqb_spec c 95) as [->|N95].
  { destruct (tokens p) as [t|] eqn:Et; [|discriminate]. injection H as <-. cbn [run length] in *. destruct s as [|d s]; [reflexivity|]. apply IH; [exact Et|lia|lia]. }
  destruct (Z.eqb_spec c 92) as [->|N92].
  { destruct p as [|e p]; [discriminate|]. destruct (tokens p) as [t|] eqn:Et; [|discriminate]. injection H as <-. cbn [run length] in *. destruct s as [|d s]; [reflexivity|].
    destruct (e =? d); [|reflexivity]. apply IH; [exact Et|lia|lia]. }
  destruct (tokens p) as [t|] eqn:Et; [|discriminate]. injection H as <-. cbn [run length] in *. destruct s as [|d s]; [reflexivity|].
  destruct (c =? d); [|reflexivity]. apply IH; [exact Et|lia|lia].
Qed.
Lemma like_is_run s p ts : codes s -> codes p -> tokens p = Some ts -> value_like (text s) (text p) = Ok (run (S (length ts)) ts s).
Proof.
  intros Hs Hp H. unfold value_like. rewrite loop_text by assumption. apply loop_run; [exact H| |lia].
  pose proof (text_len p Hp). lia.
Qed.
(** first occurrence *)
Lemma find_c_some c s r : find_c c s = Some r -> exists a, s = a ++ c :: r /\ ~ In c a.
Proof.
  revert r. induction s as [|d s IH]; intros r H; [discriminate|]. cbn in H. destruct (Z.eqb_spec c d) as [->|N].
  - injection H as <-. exists []. auto.
  - destruct (IH r H) as (a & -> & Na). exists (d :: a). split; [reflexivity|]. intros [E|E]; auto.
Qed.
Lemma find_c_none c s : find_c c s = None -> ~ In c s.
Proof. induction s as [|d s IH]; cbn; [auto|]. destruct (Z.eqb_spec c d); [discriminate|]. intros H [E|E]; [auto|]. now apply IH. Qed.
Lemma find_c_first c a q r : find_c c (a ++ c :: q) = Some r -> exists x, r = x ++ q.
Proof.
  revert r. induction a as [|d a IH]; intros r H; cbn in H.
  - rewrite Z.eqb_refl in H. injection H as <-. exists []. reflexivity.
  - destruct (c =? d); [injection H as <-; exists (a ++ [c]); now rewrite <- app_assoc|]. now apply IH.
Qed.
(** no % is followed by _ *)
Fixpoint no_any_one (ts : list tok) : bool :=
  match ts with
  | Any :: (One :: _) => false
  | _ :: ts' => no_any_one ts'
  | [] => true
  end.
Lemma skip_any ts : no_any_one (Any :: ts) = true -> forall s, like (skip_t ts) s -> (forall c t, skip_t ts = Char c :: t -> no_any_one t = true) -> like (Any :: ts) s.
Proof.
  induction ts as [|t ts IH]; intros N s H X; [apply (like_any [] [] s H)|]. destruct t as [| |c].
  - cbn [skip_t] in H. assert (L : like (Any :: ts) s) by (apply IH; [destruct ts as [|[]]; exact N|exact H|exact X]). apply (like_any [] (Any :: ts) s L).
  - discriminate.
  - apply (like_any [] (Char c :: ts) s H).
Qed.
Lemma no_any_tail t ts : no_any_one (t :: ts) = true -> no_any_one ts = true.
Proof. destruct t; cbn; auto. destruct ts as [|[]]; auto; discriminate. Qed.
Lemma no_any_skip ts : no_any_one ts = true -> no_any_one (skip_t ts) = true.
Proof. induction ts as [|t ts IH]; [auto|]. intros H. pose proof (no_any_tail _ _ H). destruct t; cbn [skip_t]; auto. Qed.
Lemma like_prefix ts a s : like (Any :: ts) s -> like (Any :: ts) (a ++ s).
Proof. intros H. inversion H as [| | |a' ts' s' L]; subst. rewrite app_assoc. now constructor. Qed.
Lemma run_sound fuel : forall ts s, no_any_one ts = true -> run fuel ts s = true -> like ts s.
Proof.
  induction fuel as [|f IH]; intros ts s N H; [discriminate|]. cbn [run] in H. destruct ts as [|[| |c] ts].
  - destruct s; [constructor|discriminate].
  - assert (G : forall ts2, skip_t ts = ts2 -> (ts2 = [] -> like (Any :: ts) s)).
    { intros ts2 E ->. rewrite <- (app_nil_r s). apply like_prefix. apply skip_any; [exact N|rewrite E; constructor|intros c t E2; rewrite E in E2; discriminate]. }
    destruct (skip_t ts) as [|[| |c] ts2] eqn:E; [now apply (G [])| | |].
    + exfalso. clear -E. induction ts as [|[] ts IH]; cbn in E; try discriminate; auto.
    + exfalso. clear -E. induction ts as [|[] ts IH]; cbn in E; try discriminate; auto.
    + destruct (find_c c s) as [r|] eqn:Ef; [|discriminate]. apply find_c_some in Ef as (a & -> & _).
      assert (N2 : no_any_one ts2 = true). { pose proof (no_any_skip ts (no_any_tail _ _ N)) as X. rewrite E in X. now apply no_any_tail in X. }
      apply like_prefix. apply skip_any; [exact N| |intros c' t' E2; rewrite E in E2; injection E2 as <- <-; exact N2].
      rewrite E. constructor. apply IH; assumption.
  - destruct s as [|d s]; [discriminate|]. constructor. apply IH; [now apply no_any_tail in N|exact H].
  - destruct s as [|d s]; [discriminate|]. apply andb_prop in H as [E H]. apply Z.eqb_eq in E. subst d. constructor. apply IH; [now apply no_any_tail in N|exact H].
Qed.
(** a match is really one, if no % is followed by _ *)
Theorem C39_sound_partial s p ts : codes s -> codes p -> tokens p = Some ts -> no_any_one ts = true ->
  value_like (text s) (text p) = Ok true -> like ts s.
Proof. intros Hs Hp H N L. rewrite (like_is_run s p ts Hs Hp H) in L. apply (run_sound (S (length ts))); [exact N|congruence]. Qed.
Print Assumptions C39_sound_partial.
(** patterns for which the answer is right: after a % there are only single characters, each
    followed by another % *)
Fixpoint after (ts : list tok) : bool :=
  match ts with
  | [] => true
  | Any :: ts' => after ts'
  | Char _ :: ((Any :: _) as ts') => after ts'
  | _ => false
  end.
Fixpoint simple (ts : list tok) : bool :=
  match ts with
  | [] => true
  | Any :: ts' => after ts'
  | _ :: ts' => simple ts'
  end.
Lemma after_no_one ts : after ts = true -> no_any_one (Any :: ts) = true.
Proof.
  assert (G : forall n ts, (length ts <= n)%nat -> after ts = true -> no_any_one (Any :: ts) = true).
  { induction n as [|n IH]; intros t L H; (destruct t as [|[| |c] t]; [reflexivity|..]); cbn [length] in L; try lia; try discriminate.
    - change (no_any_one (Any :: t) = true). apply IH; [lia|exact H].
    - destruct t as [|[| |d] t]; try discriminate. change (no_any_one (Any :: t) = true). cbn [length] in L. apply IH; [lia|exact H]. }
  apply (G (length ts)). lia.
Qed.
Lemma simple_no_one ts : simple ts = true -> no_any_one ts = true.
Proof. induction ts as [|[| |c] ts IH]; intros H; [reflexivity|now apply after_no_one|exact (IH H)|exact (IH H)]. Qed.
Lemma like_any_skip ts s : after ts = true -> like (Any :: ts) s -> match skip_t ts with [] => True | t2 => like (Any :: t2) s end /\ after (skip_t ts) = true.
Proof.
  revert s. induction ts as [|[| |c] ts IH]; intros s A H; cbn [skip_t]; try discriminate.
  - split; [exact I|reflexivity].
  - apply IH; [exact A|]. inversion H as [| | |a t s' L]; subst. now apply like_prefix.
  - split; [exact H|exact A].
Qed.
Lemma run_complete_after fuel : forall ts s, (length ts < fuel)%nat -> after ts = true -> like (Any :: ts) s -> run fuel (Any :: ts) s = true.
Proof.
  induction fuel as [|f IH]; intros ts s L A H; [lia|]. cbn [run]. destruct (like_any_skip ts s A H) as [H2 A2]. pose proof (skip_t_len ts) as Lt.
  destruct (skip_t ts) as [|[| |c] ts2] eqn:E; try reflexivity.
  cbn in A2. destruct ts2 as [|[| |d] ts3]; try discriminate.
  inversion H2 as [| | |a t s' L2]; subst. inversion L2 as [| |c' t s2 L3|]; subst.
  destruct (find_c c (a ++ c :: s2)) as [r|] eqn:Ef.
  - destruct (find_c_first _ _ _ _ Ef) as (x & ->). cbn [length] in Lt. apply IH; [lia|exact A2|now apply like_prefix].
  - apply find_c_none in Ef. exfalso. apply Ef. rewrite in_app_iff. right. left. reflexivity.
Qed.
Lemma run_complete fuel : forall ts s, (length ts < fuel)%nat -> simple ts = true -> like ts s -> run fuel ts s = true.
Proof.
  induction fuel as [|f IH]; intros ts s L A H; [lia|]. destruct ts as [|[| |c] ts]; cbn [length] in L.
  - inversion H; reflexivity.
  - apply run_complete_after; [cbn; lia|exact A|exact H].
  - inversion H; subst. cbn [run]. apply IH; [lia|exact A|assumption].
  - inversion H; subst. cbn [run]. rewrite Z.eqb_refl. apply IH; [lia|exact A|assumption].
Qed.
Theorem C39_simple_partial s p ts : codes s -> codes p -> tokens p = Some ts -> simple ts = true ->
  exists b, value_like (text s) (text p) = Ok b /\ (b = true <-> like ts s).
Proof.
  intros Hs Hp H A. rewrite (like_is_run s p ts Hs Hp H). eexists. split; [reflexivity|]. split; [apply run_sound; now apply simple_no_one|apply run_complete; [lia|exact A]].
Qed.
Print Assumptions C39_simple_partial.
(** 'aab' LIKE '%ab' and 'bab' LIKE '%b': the first occurrence is taken and never given up *)
Theorem C39_first_occurrence_refuted : exists s1 p1 t1 s2 p2 t2,
  tokens p1 = Some t1 /\ like t1 s1 /\ value_like (text s1) (text p1) = Ok false /\
  tokens p2 = Some t2 /\ like t2 s2 /\ value_like (text s2) (text p2) = Ok false.
Proof.
  exists [97; 97; 98], [37; 97; 98], [Any; Char 97; Char 98], [98; 97; 98], [37; 98], [Any; Char 98].
  split; [reflexivity|]. split; [apply (like_any [97]); repeat constructor|]. split; [reflexivity|]. split; [reflexivity|]. split; [apply (like_any [98; 97]); repeat constructor|reflexivity].
Qed.
Print Assumptions C39_first_occurrence_refuted.
(** '' LIKE '%_' *)
Theorem C39_any_one_refuted : exists s p t, tokens p = Some t /\ ~ like t s /\ value_like (text s) (text p) = Ok true.
Proof.
  exists [], [37; 95], [Any; One]. split; [reflexivity|]. split; [|reflexivity].
  intros H. inversion H as [| | |a ts s L E1 E2]; subst. destruct a; [|discriminate]. cbn in E2. subst s. inversion L.
Qed.
Print Assumptions C39_any_one_refuted.
(** a backslash at the end of the pattern: the byte behind the pattern is read *)
Theorem C39_backslash_refuted : exists s p, bytes_ok s = true /\ bytes_ok p = true /\ value_like s p = UB.
Proof. exists [97], [92]. auto. Qed.
Print Assumptions C39_backslash_refuted.
Example C39_nonvacuous : tokens [97; 95; 37; 92; 37; 37] = Some [Char 97; One; Any; Char 37; Any] /\ simple [Char 97; One; Any; Char 37; Any] = true /\
  value_like (text [97; 8364; 120; 37; 121]) (text [97; 95; 37; 92; 37; 37]) = Ok true /\ value_like (text [97; 8364; 120; 121]) (text [97; 95; 37; 92; 37; 37]) = Ok false.
Proof. vm_compute. auto. Qed.

(** ** C62: string functions count and cut characters *)
Lemma prefix_text sub : forall s r, codes sub -> codes s -> text s = text sub ++ r -> exists q, s = sub ++ q /\ r = text q.
Proof.
  induction sub as [|c sub IH]; intros s r Hsub Hs E; [exists s; cbn in E; auto|]. inversion Hsub as [|? ? Hc Hsub']; subst.
  destruct s as [|d s]; [rewrite text_cons in E; destruct (utf8_nonempty c Hc) as (b & t & Eb & _); rewrite Eb in E; discriminate|]. inversion Hs as [|? ? Hd Hs']; subst.
  rewrite !text_cons, <- app_assoc in E. apply utf8_inj in E as [-> E]; [|assumption..]. destruct (IH s r Hsub' Hs' E) as (q & -> & ->). exists q. auto.
Qed.
Definition prefix_b (sub s : list Z) : bool := bytes_eqb (text sub) (firstn (length (text sub)) (text s)).
Lemma prefix_spec sub s : codes sub -> codes s -> prefix_b sub s = true <-> prefix sub s.
Proof.
  intros Hsub Hs. unfold prefix_b. rewrite bytes_eqb_eq. split.
  - intros E. destruct (prefix_text sub s (skipn (length (text sub)) (text s)) Hsub Hs) as (q & -> & _); [rewrite E at 1; symmetry; apply firstn_skipn|]. now exists q.
  - intros (q & ->). rewrite text_app. rewrite firstn_app, firstn_all, Nat.sub_diag, firstn_O. symmetry. apply app_nil_r.
Qed.
Theorem C62_length l : codes l -> fn_length (text l) = Z.of_nat (length l) /\ fn_octet_length (text l) = Z.of_nat (length (text l)).
Proof. intros H. split; [now apply strlen_text|reflexivity]. Qed.
Print Assumptions C62_length.
Lemma s32_small v : - 2 ^ 31 <= v < 2 ^ 31 -> s32 v = v.
Proof. unfold s32, sx. change (8 * Z.of_nat 4 - 1) with 31. change (8 * Z.of_nat 4) with 32. intros H. destruct (Z.ltb_spec (v mod 2 ^ 32) (2 ^ 31)); eucl. Qed.
Lemma cut_text l n : codes l -> (n <= length l)%nat -> firstn (length (text l) - length (text (skipn n l))) (text l) = text (firstn n l).
Proof.
  intros H L. rewrite <- (firstn_skipn n l) at 1 3. rewrite text_app, app_length. rewrite Nat.add_sub. rewrite firstn_app, firstn_all, Nat.sub_diag, firstn_O. apply app_nil_r.
Qed.
Lemma codes_skip n l : codes l -> codes (skipn n l).
Proof. revert l. induction n as [|n IH]; intros l H; [exact H|]. destruct l; [constructor|]. inversion H; subst. now apply IH. Qed.
(** SUBSTR(s, pos[, count]) with a position of at least 1 and a count of at least 0: the characters,
    or an error if the string is too short *)
Theorem C62_substr_partial l pos : codes l -> Z.of_nat (length l) < 2 ^ 31 -> 1 <= pos ->
  fn_substr (text l) pos None = (if pos <=? Z.of_nat (length l) then Ok (text (skipn (Z.to_nat (pos - 1)) l)) else Err) /\
  forall count, 0 <= count < 2 ^ 31 -> fn_substr (text l) pos (Some count) =
    (if (pos <=? Z.of_nat (length l)) && (pos - 1 + count <=? Z.of_nat (length l)) then Ok (text (firstn (Z.to_nat count) (skipn (Z.to_nat (pos - 1)) l))) else Err).
Proof.
  intros H Ll Hp. unfold fn_substr. rewrite strlen_text by exact H. rewrite (s32_small (Z.of_nat (length l))) by lia.
  destruct (Z.eqb_spec pos 0); [lia|]. destruct (Z.leb_spec (Z.of_nat (length l)) (pos - 1)) as [A|A]; destruct (Z.leb_spec pos (Z.of_nat (length l))) as [B|B]; try lia; [split; [reflexivity|intros count _; reflexivity]|].
  rewrite (s32_small (pos - 1)), (s32_small (Z.of_nat (length l) - (pos - 1))) by lia.
  rewrite at_text by (try exact H; lia). cbn [bind].
  assert (Hk : codes (skipn (Z.to_nat (pos - 1)) l)) by now apply codes_skip. assert (Lk : length (skipn (Z.to_nat (pos - 1)) l) = (length l - Z.to_nat (pos - 1))%nat) by apply skipn_length.
  split.
  - rewrite at_text by (try exact Hk; lia). cbn [bind]. rewrite cut_text by (try exact Hk; lia). rewrite firstn_all2 by lia. reflexivity.
  - intros count Hc. rewrite (s32_small count) by lia. cbn [andb]. destruct (Z.ltb_spec (Z.of_nat (length l)) (pos - 1 + count)), (Z.leb_spec (pos - 1 + count) (Z.of_nat (length l))); try lia; [reflexivity|].
    rewrite at_text by (try exact Hk; lia). cbn [bind]. now rewrite cut_text by (try exact Hk; lia).
Qed.
Print Assumptions C62_substr_partial.
(** a negative position reads behind the end; a count is cut to 32 bits *)
Theorem C62_substr_refuted : fn_substr (text [97; 98]) (-1) None = UB /\ fn_substr (text [97; 98]) 1 (Some (2 ^ 32 + 1)) = Ok (text [97]).
Proof. vm_compute. auto. Qed.
Print Assumptions C62_substr_refuted.
(** STRPOS: the position of the first occurrence, 0 if there is none *)
Lemma strpos_text sub l : codes sub -> sub <> [] -> codes l -> forall fuel n, (length l < fuel)%nat ->
  exists k, strpos_loop fuel n (text l) (text sub) = Ok k /\
  ((k = 0 /\ forall j, (j <= length l)%nat -> ~ prefix sub (skipn j l)) \/
   exists j, k = n + Z.of_nat j /\ (j <= length l)%nat /\ prefix sub (skipn j l) /\ forall i, (i < j)%nat -> ~ prefix sub (skipn i l)).
Proof.
  intros Hsub Ne. induction 1 as [|c l Hc Hl IH]; intros fuel n L; (destruct fuel as [|f]; [lia|]).
  - exists 0. split; [reflexivity|]. left. split; [reflexivity|]. intros j Hj [q E]. replace j with O in E by (cbn in Hj; lia). cbn in E. symmetry in E. apply app_eq_nil in E as [E _]. auto.
  - assert (Hcl : codes (c :: l)) by (constructor; assumption). cbn [strpos_loop].
    replace (match text (c :: l) with [] => Ok 0 | _ :: _ => _ end) with
      (if Z.of_nat (length (text (c :: l))) <? Z.of_nat (length (text sub)) then Ok 0
      else if prefix_b sub (c :: l) then Ok n else do r <- utf8_forward (text (c :: l)); strpos_loop f (n + 1) r (text sub)).
    2:{ destruct (utf8_nonempty c Hc) as (b & t & E & _). unfold prefix_b. rewrite text_cons, E. reflexivity. }
    destruct (Z.ltb_spec (Z.of_nat (length (text (c :: l)))) (Z.of_nat (length (text sub)))) as [A|A].
    + exists 0. split; [reflexivity|]. left. split; [reflexivity|]. intros j Hj [q E].
      assert (X : (length (text (skipn j (c :: l))) <= length (text (c :: l)))%nat).
      { rewrite <- (firstn_skipn j (c :: l)) at 2. rewrite text_app, app_length. lia. }
      rewrite E, text_app, app_length in X. lia.
    + destruct (prefix_b sub (c :: l)) eqn:Ep.
      * exists n. split; [reflexivity|]. right. exists O. split; [lia|]. split; [lia|]. split; [now apply prefix_spec|]. intros i Hi. lia.
      * assert (Np : ~ prefix sub (c :: l)) by (intros X; apply prefix_spec in X; congruence).
        rewrite forward_text by exact Hc. cbn [bind]. destruct (IH f (n + 1)) as (k & E & K); [cbn in L; lia|]. exists k. split; [exact E|].
        destruct K as [[-> K]|(j & -> & Lj & P & M)].
        -- left. split; [reflexivity|]. intros [|j] Hj; [exact Np|]. apply K. cbn in Hj. lia.
        -- right. exists (S j). split; [lia|]. split; [cbn; lia|]. split; [exact P|]. intros [|i] Hi; [exact Np|]. apply M. lia.
Qed.
Theorem C62_strpos l sub : codes l -> codes sub -> sub <> [] ->
  exists k, fn_strpos (text l) (text sub) = Ok k /\
  ((k = 0 /\ forall j, (j <= length l)%nat -> ~ prefix sub (skipn j l)) \/
   exists j, k = 1 + Z.of_nat j /\ (j <= length l)%nat /\ prefix sub (skipn j l) /\ forall i, (i < j)%nat -> ~ prefix sub (skipn i l)).
Proof.
  intros Hl Hsub Ne. unfold fn_strpos. destruct (text sub) eqn:E; [apply text_nil in E; [contradiction|exact Hsub]|]. rewrite <- E.
  apply strpos_text; try assumption. pose proof (text_len l Hl). lia.
Qed.
Print Assumptions C62_strpos.
(** REPLACE: all occurrences from left to right *)
Lemma replace_text from to_ : codes from -> codes to_ -> from <> [] -> forall fuel l, codes l -> (length l < fuel)%nat ->
  exists o, codes o /\ replace_loop fuel (text l) (text from) (text to_) = Ok (text o) /\ replaced from to_ l o.
Proof.
  intros Hf Ht Ne. induction fuel as [|f IH]; intros l Hl L; [lia|]. destruct l as [|c l]; [exists []; split; [constructor|]; split; [reflexivity|constructor]|].
  inversion Hl as [|? ? Hc Hl']; subst. cbn [replace_loop].
  replace (match text (c :: l) with [] => Ok [] | _ :: _ => _ end) with
    (if Z.of_nat (length (text (c :: l))) <? Z.of_nat (length (text from)) then Ok (text (c :: l))
      else if prefix_b from (c :: l) then do o <- replace_loop f (skipn (length (text from)) (text (c :: l))) (text from) (text to_); Ok (text to_ ++ o)
      else do (x, r) <- take_char (text (c :: l)); do o <- replace_loop f r (text from) (text to_); Ok (x ++ o)).
  2:{ destruct (utf8_nonempty c Hc) as (b & t & E & _). unfold prefix_b. rewrite text_cons, E. reflexivity. }
  destruct (Z.ltb_spec (Z.of_nat (length (text (c :: l)))) (Z.of_nat (length (text from)))) as [A|A].
  - exists (c :: l). split; [exact Hl|]. split; [reflexivity|].
    assert (G : forall m, (length (text m) < length (text from))%nat -> replaced from to_ m m).
    { clear -Hf. induction m as [|x m IHm]; intros Lm; [constructor|]. constructor.
      - intros [q E]. rewrite E, text_app, app_length in Lm. lia.
      - apply IHm. rewrite text_cons, app_length in Lm. lia. }
    apply G. lia.
  - destruct (prefix_b from (c :: l)) eqn:Ep.
    + apply prefix_spec in Ep; [|assumption..]. destruct Ep as (q & E). rewrite E. rewrite text_app.
      replace (skipn (length (text from)) (text from ++ text q)) with (text q).
      2:{ rewrite skipn_app, skipn_all, Nat.sub_diag. reflexivity. }
      rewrite E in Hl. apply Forall_app in Hl as [_ Hq]. destruct (IH q Hq) as (o & Ho & R & Rel).
      { assert (length (c :: l) = length (from ++ q)) as X by now rewrite E. rewrite app_length in X. cbn in X, L. destruct from; [contradiction|]. cbn in X. lia. }
      rewrite R. cbn [bind]. exists (to_ ++ o). split; [apply Forall_app; auto|]. split; [now rewrite text_app|]. now constructor.
    + assert (Np : ~ prefix from (c :: l)) by (intros X; apply prefix_spec in X; [congruence|assumption..]).
      rewrite (text_cons c l). rewrite take_enc by exact Hc. cbn [bind]. destruct (IH l Hl') as (o & Ho & R & Rel); [cbn in L; lia|]. rewrite R. cbn [bind].
      exists (c :: o). split; [constructor; assumption|]. split; [reflexivity|]. now constructor.
Qed.
Theorem C62_replace l from to_ : codes l -> codes from -> codes to_ -> from <> [] ->
  exists o, fn_replace (text l) (text from) (text to_) = Ok (text o) /\ replaced from to_ l o.
Proof.
  intros Hl Hf Ht Ne. unfold fn_replace. destruct (text from) eqn:E; [apply text_nil in E; [contradiction|exact Hf]|]. rewrite <- E.
  destruct (replace_text from to_ Hf Ht Ne (S (length (text l))) l Hl) as (o & _ & R & Rel); [pose proof (text_len l Hl); lia|]. exists o. auto.
Qed.
Print Assumptions C62_replace.
Lemma replaced_fun from to_ l o : from <> [] -> replaced from to_ l o -> forall o', replaced from to_ l o' -> o = o'.
Proof.
  intros Ne. induction 1 as [|s o H IH|c s o N H IH]; intros o' H'.
  - inversion H' as [|s o2 H2 E|]; [reflexivity|]. apply app_eq_nil in E as [E _]. contradiction.
  - inversion H' as [E|s2 o2 H2 E|c s2 o2 N H2 E].
    + symmetry in E. apply app_eq_nil in E as [E _]. contradiction.
    + apply app_inv_head in E. subst. f_equal. now apply IH.
    + exfalso. apply N. exists s. congruence.
  - inversion H' as [|s2 o2 H2 E|c2 s2 o2 N2 H2 E]; subst.
    + exfalso. apply N. exists s2. congruence.
    + f_equal. now apply IH.
Qed.
(** TRIM, LTRIM, RTRIM: all characters of the filter at the ends and no other *)
Lemma filter_text c flt : code c -> codes flt -> forall fuel, (length flt < fuel)%nat -> in_filter fuel (utf8 c) (text flt) = Ok (existsb (Z.eqb c) flt).
Proof.
  intros Hc. induction 1 as [|d s Hd H IH]; intros fuel L; (destruct fuel as [|f]; [lia|]); [reflexivity|]. cbn [in_filter existsb].
  replace (match text (d :: s) with [] => Ok false | _ :: _ => _ end) with (do (x, r) <- take_char (text (d :: s)); if bytes_eqb (utf8 c) x then Ok true else in_filter f (utf8 c) r).
  - rewrite text_cons, take_enc by exact Hd. cbn [bind]. rewrite chars_eqb by assumption. destruct (c =? d); [reflexivity|]. apply IH. cbn in L. lia.
  - destruct (utf8_nonempty d Hd) as (b & t & E & _). rewrite text_cons, E. reflexivity.
Qed.
Fixpoint drop_while (p : Z -> bool) (l : list Z) : list Z := match l with c :: l' => if p c then drop_while p l' else l | [] => [] end.
Lemma ltrim_text flt : codes flt -> forall fuel l, codes l -> (length l < fuel)%nat -> ltrim_loop fuel (text l) (text flt) = Ok (text (drop_while (fun c => existsb (Z.eqb c) flt) l)).
Proof.
  intros Hf. induction fuel as [|f IH]; intros l Hl L; [lia|]. destruct l as [|c l]; [reflexivity|]. inversion Hl as [|? ? Hc Hl']; subst. cbn [ltrim_loop drop_while].
  replace (match text (c :: l) with [] => Ok [] | _ :: _ => _ end) with (do (x, r) <- take_char (text (c :: l)); do m <- in_filter (S (length (text flt))) x (text flt); if m then ltrim_loop f r (text flt) else Ok (text (c :: l))).
  - rewrite text_cons at 1. rewrite take_enc by exact Hc. cbn [bind]. rewrite filter_text; [|exact Hc|exact Hf|pose proof (text_len flt Hf); lia]. cbn [bind].
    destruct (existsb (Z.eqb c) flt); [|reflexivity]. apply IH; [exact Hl'|cbn in L; lia].
  - destruct (utf8_nonempty c Hc) as (b & t & E & _). rewrite text_cons, E. reflexivity.
Qed.
Lemma backward_conts t : Forall (fun x => is_cont x = true) t -> forall b r acc, is_cont b = false -> utf8_backward (rev t ++ b :: r) acc = Ok (b :: t ++ acc, r).
Proof.
  induction t as [|x t IH] using rev_ind; intros F b r acc N; [cbn; now rewrite N|]. apply Forall_app in F as [F Fx]. inversion Fx as [|? ? Ex _]; subst.
  rewrite rev_app_distr. cbn [rev app utf8_backward]. rewrite Ex. rewrite IH by assumption. now rewrite <- app_assoc.
Qed.
Lemma rtrim_text flt : codes flt -> forall fuel l, codes l -> (length l < fuel)%nat -> rtrim_loop fuel (rev (text (rev l))) (text flt) = Ok (rev (text (rev (drop_while (fun c => existsb (Z.eqb c) flt) l)))).
Proof.
  intros Hf. induction fuel as [|f IH]; intros l Hl L; [lia|]. destruct l as [|c l]; [reflexivity|]. inversion Hl as [|? ? Hc Hl']; subst. cbn [rtrim_loop drop_while].
  destruct (utf8_nonempty c Hc) as (b & t & E & _ & N & F & Sz).
  assert (X : rev (text (rev (c :: l))) = rev t ++ b :: rev (text (rev l))).
  { cbn [rev]. rewrite text_app, rev_app_distr. cbn [text flat_map]. rewrite app_nil_r, E. cbn [rev]. now rewrite <- app_assoc. }
  replace (match rev (text (rev (c :: l))) with [] => Ok [] | _ :: _ => _ end) with
    (do (x, r) <- utf8_backward (rev (text (rev (c :: l)))) []; if utf8_sizeof (nth 0 x 0) =? Z.of_nat (length x) then do m <- in_filter (S (length (text flt))) x (text flt); if m then rtrim_loop f r (text flt) else Ok (rev (text (rev (c :: l)))) else UB).
  - rewrite X at 1. rewrite backward_conts by assumption. cbn [bind]. rewrite app_nil_r, <- E. rewrite E at 1. cbn [nth]. rewrite Sz, Z.eqb_refl.
    rewrite filter_text; [|exact Hc|exact Hf|pose proof (text_len flt Hf); lia]. cbn [bind]. destruct (existsb (Z.eqb c) flt); [|reflexivity]. apply IH; [exact Hl'|cbn in L; lia].
  - rewrite X. destruct (rev t); reflexivity.
Qed.
Lemma codes_rev l : codes l -> codes (rev l).
Proof. intros H. apply Forall_forall. intros x Hx. apply in_rev in Hx. unfold codes in H. rewrite Forall_forall in H. auto. Qed.
Lemma codes_drop p l : codes l -> codes (drop_while p l).
Proof. induction 1 as [|c l Hc H IH]; cbn; [constructor|]. destruct (p c); [exact IH|constructor; assumption]. Qed.
Lemma drop_spec p l : exists a, l = a ++ drop_while p l /\ Forall (fun c => p c = true) a /\ (forall c q, drop_while p l = c :: q -> p c = false).
Proof.
  induction l as [|c l (a & E & F & N)]; cbn; [exists []; split; [reflexivity|]; split; [constructor|discriminate]|]. destruct (p c) eqn:Ec.
  - exists (c :: a). split; [cbn; now rewrite <- E|]. auto.
  - exists []. split; [reflexivity|]. split; [constructor|]. intros c' q [= <- <-]. exact Ec.
Qed.
Lemma in_existsb c flt : existsb (Z.eqb c) flt = true <-> In c flt.
Proof. rewrite existsb_exists. split; [intros (x & H & E); apply Z.eqb_eq in E; now subst|intros H; exists c; split; [exact H|apply Z.eqb_refl]]. Qed.
Lemma not_existsb c flt : existsb (Z.eqb c) flt = false <-> ~ In c flt.
Proof. rewrite <- in_existsb. destruct (existsb (Z.eqb c) flt); split; congruence. Qed.
Theorem C62_trim left right l flt : codes l -> codes flt ->
  exists a m b, l = a ++ m ++ b /\ fn_trim left right (text l) (text flt) = Ok (text m) /\
    Forall (fun c => In c flt) a /\ Forall (fun c => In c flt) b /\
    (left = false -> a = []) /\ (right = false -> b = []) /\
    (left = true -> forall c q, m = c :: q -> ~ In c flt) /\ (right = true -> forall c q, m = q ++ [c] -> ~ In c flt).
Proof.
  intros Hl Hf. unfold fn_trim. set (p := fun c => existsb (Z.eqb c) flt).
  set (l1 := if left then drop_while p l else l).
  assert (H1 : codes l1) by (unfold l1; destruct left; [now apply codes_drop|exact Hl]).
  assert (E1 : (if left then ltrim_loop (S (length (text l))) (text l) (text flt) else Ok (text l)) = Ok (text l1)).
  { unfold l1. destruct left; [|reflexivity]. apply ltrim_text; try assumption. pose proof (text_len l Hl). lia. }
  rewrite E1. cbn [bind].
  assert (A1 : exists a, l = a ++ l1 /\ Forall (fun c => In c flt) a /\ (left = false -> a = []) /\ (left = true -> forall c q, l1 = c :: q -> ~ In c flt)).
  { unfold l1. destruct left.
    - destruct (drop_spec p l) as (a & E & F & N). exists a. split; [exact E|]. split; [eapply Forall_impl; [|exact F]; intros c; apply in_existsb|]. split; [discriminate|].
      intros _ c q Eq. apply not_existsb. now apply (N c q).
    - exists []. split; [reflexivity|]. split; [constructor|]. split; [reflexivity|discriminate]. }
  destruct A1 as (a & El & Fa & La & Na).
  destruct right.
  - assert (E2 : rtrim_loop (S (length (text l1))) (rev (text l1)) (text flt) = Ok (rev (text (rev (drop_while p (rev l1)))))).
    { rewrite <- (rev_involutive l1) at 2. apply rtrim_text; [exact Hf|now apply codes_rev|]. rewrite rev_length. pose proof (text_len l1 H1). lia. }
    rewrite E2. cbn [bind]. rewrite rev_involutive.
    destruct (drop_spec p (rev l1)) as (b & Eb & Fb & Nb). set (m := rev (drop_while p (rev l1))) in *.
    assert (Em : l1 = m ++ rev b). { unfold m. rewrite <- rev_app_distr, <- Eb. symmetry. apply rev_involutive. }
    exists a, m, (rev b). split; [now rewrite <- Em|]. split; [reflexivity|]. split; [exact Fa|].
    split; [apply Forall_rev; eapply Forall_impl; [|exact Fb]; intros c; apply in_existsb|]. split; [exact La|]. split; [discriminate|]. split.
    + intros Hleft c q Eq. apply (Na Hleft c (q ++ rev b)). now rewrite Em, Eq.
    + intros _ c q Eq. apply not_existsb. apply (Nb c (rev q)). unfold m in Eq. rewrite <- (rev_involutive (drop_while p (rev l1))), Eq, rev_app_distr. reflexivity.
  - exists a, l1, []. split; [now rewrite app_nil_r|]. split; [reflexivity|]. split; [exact Fa|]. split; [constructor|]. split; [exact La|]. split; [reflexivity|]. split; [exact Na|discriminate].
Qed.
Print Assumptions C62_trim.
(** LOWER, UPPER change exactly the ASCII letters *)
Lemma case_text f : (forall c, 0 <= c < 128 -> 0 <= f c < 128) -> (forall c, 128 <= c -> f c = c) -> forall fuel l, codes l -> (length l < fuel)%nat -> case_loop fuel f (text l) = Ok (text (map f l)).
Proof.
  intros F1 F2. induction fuel as [|n IH]; intros l Hl L; [lia|]. destruct l as [|c l]; [reflexivity|]. inversion Hl as [|? ? Hc Hl']; subst.
  destruct (utf8_nonempty c Hc) as (b & t & E & _). cbn [case_loop map]. rewrite text_cons, E. cbn [app]. change (b :: t ++ text l) with ((b :: t) ++ text l). rewrite <- E.
  rewrite take_enc by exact Hc. cbn [bind]. rewrite IH by (try exact Hl'; cbn in L; lia). cbn [bind]. rewrite text_cons. f_equal. f_equal.
  unfold utf8 in *. unfold code in Hc. destruct (Z.ltb_spec c 128) as [A|A].
  - injection E as <- _. cbn [length Z.of_nat Pos.of_succ_nat Z.eqb Pos.eqb]. specialize (F1 c ltac:(lia)). destruct (Z.ltb_spec (f c) 128); [reflexivity|lia].
  - rewrite (F2 c) by lia. destruct (Z.ltb_spec c 128); [lia|]. destruct (Z.ltb_spec c 2048); [reflexivity|]. destruct (Z.ltb_spec c 65536); reflexivity.
Qed.
Definition lower_char (c : Z) : Z := if (65 <=? c) && (c <=? 90) then c + 32 else c. (* A-Z to a-z *)
Definition upper_char (c : Z) : Z := if (97 <=? c) && (c <=? 122) then c - 32 else c. (* a-z to A-Z *)
Theorem C62_case l : codes l -> fn_lower (text l) = Ok (text (map lower_char l)) /\ fn_upper (text l) = Ok (text (map upper_char l)).
Proof.
  intros H. pose proof (text_len l H). split; [unfold fn_lower; change lower_char with tolower|unfold fn_upper; change upper_char with toupper]; apply case_text; try assumption; try lia; unfold tolower, toupper.
  all: intros c Hc; match goal with |- context [if ?x then _ else _] => destruct x eqn:? end; lia.
Qed.
Print Assumptions C62_case.
Example C62_nonvacuous : fn_substr (text [8364; 97; 128512; 98]) 2 (Some 2) = Ok (text [97; 128512]) /\ fn_strpos (text [8364; 97; 128512; 98]) (text [128512]) = Ok 3 /\
  fn_replace (text [97; 97; 97; 8364]) (text [97; 97]) (text [233]) = Ok (text [233; 97; 8364]) /\ fn_trim true true (text [32; 8364; 97; 32; 8364]) (text [8364; 32]) = Ok (text [97]) /\
  fn_upper (text [97; 233; 98]) = Ok (text [65; 233; 66]).
Proof. vm_compute. auto 6. Qed.
