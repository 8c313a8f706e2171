(** Proofs for C89. *)
From Coq Require Import String.
From Verif Require Import Base HttpModel UriModel SepModel SepSpec.

Definition prev_ok (p : option Z) : bool := match p with None => true | Some b => (b =? SEMI) || space b end.
Lemma space_iff c : space c = true <-> c = 32 \/ 9 <= c <= 13.
Proof. unfold space. lia. Qed.
Lemma is_case_spec a b : is_case a b = true <-> map lower a = map lower b.
Proof.
  revert b; induction a as [|x a IH]; intros [|y b]; cbn; split; intros H; try easy.
  - apply andb_prop in H as [H1 H2]. apply IH in H2. apply Z.eqb_eq in H1. congruence.
  - injection H as H1 H2. rewrite H1, Z.eqb_refl. now apply IH.
Qed.
(** lengths *)
Lemma skip_spaces_len s : forall p, (length (snd (skip_spaces p s)) <= length s)%nat.
Proof. induction s as [|c s IH]; intros p; cbn; [lia|]. destruct (space c); cbn; [specialize (IH (Some c)); lia|lia]. Qed.
Lemma to_newline_len s : forall p, (length (snd (to_newline p s)) <= length s)%nat.
Proof. induction s as [|c s IH]; intros p; cbn; [lia|]. destruct (c =? NL); cbn; [lia|specialize (IH (Some c)); lia]. Qed.
Lemma skip_len p s : (length (snd (skip p s)) <= length s)%nat.
Proof.
  unfold skip. pose proof (skip_spaces_len s p) as H. destruct (skip_spaces p s) as [p1 s1]. cbn in H.
  destruct s1 as [|a [|b r]]; cbn in *; try lia. destruct ((a =? 45) && (b =? 45)); [|cbn; lia].
  pose proof (to_newline_len (a :: b :: r) p1) as H2. cbn in *. lia.
Qed.
Lemma skip_string_len q s : forall b p, (length (snd (skip_string q b p s)) <= length s)%nat.
Proof.
  induction s as [|c s IH]; intros b p; cbn; [lia|]. destruct (c =? q); [destruct b; cbn; [specialize (IH false (Some c)); lia|lia]|].
  specialize (IH (if c =? 92 then negb b else false) (Some c)). lia.
Qed.
Lemma match_len w p s p' s' : (0 < length w)%nat -> match_word w p s = Some (p', s') -> (length s' < length s)%nat.
Proof.
  unfold match_word. intros Hw H. destruct (match p with None => true | Some b => (b =? SEMI) || space b end); [|easy].
  destruct (length s <? length w + 1)%nat eqn:E; [easy|]. destruct (is_case _ _); [|easy].
  destruct (skipn (length w) s) as [|c r] eqn:Es; [easy|]. destruct (space c || (c =? SEMI)); [|easy]. injection H as <- <-. rewrite <- Es, skipn_length. apply Nat.ltb_ge in E. lia.
Qed.
Lemma at_len p s : match at_position p s with Token _ (_, s') | Skip (_, s') => (length s' < length s)%nat | Eof => True end.
Proof.
  unfold at_position. destruct s as [|c r]; [exact I|].
  repeat match goal with
  | |- context [match match_word (text ?w) ?p (c :: r) with _ => _ end] =>
      let E := fresh in destruct (match_word (text w) p (c :: r)) as [[? ?]|] eqn:E; [apply match_len in E; [|cbn; lia]; try exact E|clear E]
  end.
  - pose proof (skip_len o l) as Hs. destruct (skip o l) as [p1 s1]. cbn in Hs. destruct s1 as [|d s1]; [exact I|].
    destruct (d =? SEMI); [cbn in *; lia|].
    destruct (match_word (text "exists") p1 (d :: s1)) as [[? ?]|] eqn:E1; [apply match_len in E1; [cbn in *; lia|cbn; lia]|].
    destruct (match_word (text "not") p1 (d :: s1)) as [[? ?]|] eqn:E2; [apply match_len in E2; [cbn in *; lia|cbn; lia]|]. cbn in *. lia.
  - destruct (c =? SEMI); [cbn; lia|]. destruct ((c =? 39) || (c =? 34)); [|cbn; lia].
    pose proof (skip_string_len c r false (Some c)) as Hs. destruct (skip_string c false (Some c) r) as [p1 s1]. cbn in Hs. destruct s1; [exact I|]. cbn in *. lia.
Qed.
Lemma scan_fuel f : forall f' ic lv p s, (length s < f)%nat -> (length s < f')%nat -> scan f ic lv p s = scan f' ic lv p s.
Proof.
  induction f as [|f IH]; intros [|f'] ic lv p s H H'; try lia. cbn [scan]. pose proof (skip_len p s) as Hs. destruct (skip p s) as [p1 s1]. cbn in Hs.
  pose proof (at_len p1 s1) as Ha. destruct (at_position p1 s1) as [t [p2 s2]|[p2 s2]|]; [| |reflexivity].
  - destruct t; [apply IH; lia|apply IH; lia| |].
    + destruct ic; [destruct (lv - 1 <? 0); [reflexivity|]|]; apply IH; lia.
    + destruct (lv =? 0); [reflexivity|]. apply IH; lia.
  - apply IH; lia.
Qed.
Definition Scan ic lv p s := scan (S (length s)) ic lv p s.
Definition handle ic lv (a : found) : option (list Z) :=
  match a with
  | Eof => None
  | Skip (p, s) => Scan ic lv p s
  | Token OPEN (p, s) => Scan ic (lv + 1) p s
  | Token CASE (p, s) => Scan (S ic) lv p s
  | Token END (p, s) => match ic with S ic => Scan ic lv p s | O => if lv - 1 <? 0 then Some s else Scan O (lv - 1) p s end
  | Token SEMICOLON (p, s) => if lv =? 0 then Some s else Scan ic lv p s
  end.
Lemma Scan_step ic lv p s : Scan ic lv p s = let (p, s) := skip p s in handle ic lv (at_position p s).
Proof.
  unfold Scan at 1. cbn [scan]. pose proof (skip_len p s) as Hs. destruct (skip p s) as [p1 s1]. cbn in Hs.
  pose proof (at_len p1 s1) as Ha. unfold handle, Scan. destruct (at_position p1 s1) as [t [p2 s2]|[p2 s2]|]; [| |reflexivity].
  - destruct t; [apply scan_fuel; lia|apply scan_fuel; lia| |].
    + destruct ic; [destruct (lv - 1 <? 0); [reflexivity|]|]; apply scan_fuel; lia.
    + destruct (lv =? 0); [reflexivity|]. apply scan_fuel; lia.
  - apply scan_fuel; lia.
Qed.
Lemma Scan_space ic lv p c s : space c = true -> Scan ic lv p (c :: s) = Scan ic lv (Some c) s.
Proof. intros H. rewrite !Scan_step. unfold skip. cbn [skip_spaces]. rewrite H. reflexivity. Qed.
(** a position from which nothing is skipped *)
Definition solid (s : list Z) : Prop := match s with [] => True | c :: r => space c = false /\ (c = 45 -> match r with 45 :: _ => False | _ => True end) end.
Lemma skip_solid p s : solid s -> skip p s = (p, s).
Proof.
  intros H. unfold skip. destruct s as [|c r]; [reflexivity|]. destruct H as [H1 H2]. cbn [skip_spaces]. rewrite H1. destruct r as [|d r]; [reflexivity|].
  destruct (c =? 45) eqn:E; [|reflexivity]. apply Z.eqb_eq in E. specialize (H2 E). destruct (d =? 45) eqn:E2; [|reflexivity]. apply Z.eqb_eq in E2. subst. easy.
Qed.
Lemma match_prev w p s : prev_ok p = false -> match_word w p s = None.
Proof. unfold match_word, prev_ok. intros ->. reflexivity. Qed.
Definition letter (c : Z) : Prop := 97 <= lower c <= 122.
Lemma letter_word c : letter c -> word_byte c.
Proof. unfold letter, lower, word_byte. destruct ((65 <=? c) && (c <=? 90)) eqn:E; lia. Qed.
Definition word_letters (w : list Z) : Prop := w <> [] /\ Forall (fun c => 97 <= c <= 122) w.
Lemma lower_id w : Forall (fun c => 97 <= c <= 122) w -> map lower w = w.
Proof. induction 1 as [|c w H1 H2 IH]; cbn; [reflexivity|]. rewrite IH. f_equal. unfold lower. destruct ((65 <=? c) && (c <=? 90)) eqn:E; lia. Qed.
Lemma match_not_letter w p c r : word_letters w -> ~ letter c -> match_word w p (c :: r) = None.
Proof.
  intros [H1 H2] Hc. unfold match_word. destruct (match p with None => true | Some b => _ end); [|reflexivity]. destruct (_ <? _)%nat; [reflexivity|].
  destruct w as [|x w]; [easy|]. cbn [length firstn is_case]. inversion H2; subst. assert (lower c =? lower x = false) as ->; [|reflexivity].
  apply Z.eqb_neq. intros E. apply Hc. unfold letter. rewrite E. unfold lower. destruct ((65 <=? x) && (x <=? 90)) eqn:E2; lia.
Qed.
Definition ends_word (r : list Z) : Prop := match r with [] => True | c :: _ => ~ word_byte c end.
Lemma match_other_word k w p r : word_letters k -> w <> [] -> Forall word_byte w -> map lower w <> k -> ends_word r -> match_word k p (w ++ r) = None.
Proof.
  intros [Hk1 Hk2] Hw Hb Hne Hr. unfold match_word. destruct (match p with None => true | Some b => _ end); [|reflexivity].
  destruct (length (w ++ r) <? length k + 1)%nat eqn:El; [reflexivity|]. apply Nat.ltb_ge in El. rewrite app_length in El.
  destruct (is_case (firstn (length k) (w ++ r)) k) eqn:Ec; [|reflexivity]. apply is_case_spec in Ec. rewrite (lower_id _ Hk2) in Ec.
  destruct (Nat.lt_trichotomy (length k) (length w)) as [L|[L|L]].
  - rewrite skipn_app. replace (length k - length w)%nat with 0%nat by lia. cbn [skipn].
    destruct (skipn (length k) w) as [|c t] eqn:Es; [assert (length (skipn (length k) w) = 0%nat) by (now rewrite Es); rewrite skipn_length in *; lia|].
    cbn [app]. assert (word_byte c) as Hc.
    { apply (proj1 (Forall_forall _ _) Hb). rewrite <- (firstn_skipn (length k) w), Es. apply in_or_app. right. now left. }
    assert (space c || (c =? SEMI) = false) as ->; [|reflexivity]. unfold space, SEMI, word_byte in *. lia.
  - exfalso. apply Hne. rewrite L, firstn_app, Nat.sub_diag, firstn_all in Ec. cbn in Ec. now rewrite app_nil_r in Ec.
  - exfalso. destruct r as [|c r]; [cbn in El; lia|]. cbn in Hr.
    assert (Hin : In c (firstn (length k) (w ++ c :: r))).
    { rewrite firstn_app. apply in_or_app. right. destruct (length k - length w)%nat as [|m] eqn:Em; [lia|]. now left. }
    apply (in_map lower) in Hin. rewrite Ec in Hin. apply (proj1 (Forall_forall _ _) Hk2) in Hin. apply Hr. apply letter_word. exact Hin.
Qed.
Lemma match_keyword k w p c r : prev_ok p = true -> map lower w = k -> Forall (fun x => 97 <= x <= 122) k -> space c || (c =? SEMI) = true ->
  match_word k p (w ++ c :: r) = Some (Some (last w 0), c :: r).
Proof.
  intros Hp Hw Hk Hc. unfold match_word, prev_ok in *. rewrite Hp. assert (L : length k = length w) by (now rewrite <- Hw, map_length).
  rewrite L, app_length. cbn [length]. destruct (_ <? _)%nat eqn:E; [apply Nat.ltb_lt in E; lia|].
  rewrite firstn_app, Nat.sub_diag, firstn_all. cbn [firstn]. rewrite app_nil_r, skipn_app, Nat.sub_diag, skipn_all. cbn [skipn app].
  assert (is_case w k = true) as -> by (apply is_case_spec; now rewrite (lower_id _ Hk)). now rewrite Hc.
Qed.
Lemma letters_kw : Forall word_letters (map text ["begin"; "if"; "exists"; "not"; "case"; "for"; "while"; "end"]%string).
Proof. repeat (apply Forall_cons; [split; [discriminate|cbn; repeat constructor; lia]|]). apply Forall_nil. Qed.
Lemma letters_of k : In k ["begin"; "if"; "exists"; "not"; "case"; "for"; "while"; "end"]%string -> word_letters (text k).
Proof. intros H. apply (proj1 (Forall_forall _ _) letters_kw). now apply in_map. Qed.
Ltac kw := apply letters_of; cbn; tauto.

(** one character that begins nothing *)
Lemma at_char p c r : ~ letter c -> c <> 59 -> c <> 39 -> c <> 34 -> at_position p (c :: r) = Skip (Some c, r).
Proof.
  intros Hl H1 H2 H3. unfold at_position. rewrite !match_not_letter by (auto; kw).
  assert (c =? SEMI = false) as -> by (unfold SEMI; lia). assert ((c =? 39) || (c =? 34) = false) as -> by lia. reflexivity.
Qed.
Lemma at_inside p c r : prev_ok p = false -> word_byte c -> at_position p (c :: r) = Skip (Some c, r).
Proof.
  intros Hp Hw. unfold at_position. rewrite !match_prev by auto.
  assert (c =? SEMI = false) as -> by (unfold SEMI, word_byte in *; lia). assert ((c =? 39) || (c =? 34) = false) as -> by (unfold word_byte in *; lia). reflexivity.
Qed.
Lemma word_solid c r : word_byte c -> solid (c :: r).
Proof. intros H. split; [unfold space, word_byte in *; lia|]. intros ->. unfold word_byte in H. lia. Qed.
Lemma word_prev c : word_byte c -> prev_ok (Some c) = false.
Proof. unfold word_byte, prev_ok, space, SEMI. lia. Qed.
Lemma scan_inside ic lv w : forall p r, prev_ok p = false -> Forall word_byte w -> Scan ic lv p (w ++ r) = Scan ic lv (last (map Some w) p) r.
Proof.
  induction w as [|c w IH]; intros p r Hp Hw; [reflexivity|]. inversion Hw; subst. cbn [app]. rewrite Scan_step, skip_solid by now apply word_solid.
  rewrite at_inside by auto. cbn [handle]. rewrite IH by (auto using word_prev). destruct w; [reflexivity|]. cbn [map]. f_equal.
  clear. generalize (Some c) at 1. intros d. change (last (Some z :: map Some w) d = last (Some c :: Some z :: map Some w) p). cbn [last].
  generalize (map Some w). intros l. revert z. induction l as [|x l IH]; intros z; [reflexivity|]. destruct l; reflexivity || (cbn; cbn in IH; apply (IH 0)).
Qed.

Lemma keyword_iff w : ~ keyword w -> map lower w <> text "begin" /\ map lower w <> text "if" /\ map lower w <> text "case" /\ map lower w <> text "for" /\ map lower w <> text "while" /\ map lower w <> text "end".
Proof. unfold keyword, word_is. tauto. Qed.
Lemma scan_word ic lv p w r : w <> [] -> Forall word_byte w -> ~ keyword w -> ends_word r -> exists p', Scan ic lv p (w ++ r) = Scan ic lv p' r.
Proof.
  intros Hn Hw Hk Hr. destruct w as [|c w]; [easy|]. inversion Hw as [|? ? Hc Hw']; subst.
  exists (last (map Some w) (Some c)). rewrite <- (scan_inside ic lv w (Some c) r (word_prev _ Hc) Hw').
  cbn [app]. rewrite Scan_step, skip_solid by now apply word_solid. unfold at_position. rewrite app_comm_cons.
  apply keyword_iff in Hk as (K1 & K2 & K3 & K4 & K5 & K6).
  rewrite !match_other_word by (auto; try kw; discriminate).
  cbn [app]. assert (c =? SEMI = false) as -> by (unfold SEMI, word_byte in *; lia). assert ((c =? 39) || (c =? 34) = false) as -> by (unfold word_byte in *; lia). reflexivity.
Qed.
(** keywords *)
Definition delimited (r : list Z) : Prop := match r with c :: _ => space c || (c =? SEMI) = true | [] => False end.
Lemma delimited_ends r : delimited r -> ends_word r.
Proof. destruct r as [|c r]; [easy|]. cbn. unfold space, SEMI, word_byte. lia. Qed.
Lemma word_nonempty w k : map lower w = text k -> text k <> [] -> w <> [].
Proof. intros H1 H2 ->. apply H2. now rewrite <- H1. Qed.
Section kws.
Variables (ic : nat) (lv : Z) (p : option Z) (w r : list Z).
Hypothesis Hp : prev_ok p = true.
Hypothesis Hw : Forall word_byte w.
Hypothesis Hr : delimited r.
Lemma match_this k : In k ["begin"; "if"; "exists"; "not"; "case"; "for"; "while"; "end"]%string -> map lower w = text k -> match_word (text k) p (w ++ r) = Some (Some (last w 0), r).
Proof. intros Hk E. destruct r as [|c r0]; [easy|]. destruct (letters_of _ Hk) as [_ L]. now apply match_keyword. Qed.
Lemma match_that k k' : In k ["begin"; "if"; "exists"; "not"; "case"; "for"; "while"; "end"]%string -> In k' ["begin"; "if"; "exists"; "not"; "case"; "for"; "while"; "end"]%string ->
  map lower w = text k' -> text k' <> text k -> match_word (text k) p (w ++ r) = None.
Proof.
  intros Hk Hk' E Hne. apply match_other_word; auto using letters_of, delimited_ends.
  - eapply word_nonempty; [exact E|]. now destruct (letters_of _ Hk').
  - congruence.
Qed.
Lemma kw_solid k : In k ["begin"; "if"; "exists"; "not"; "case"; "for"; "while"; "end"]%string -> map lower w = text k -> solid (w ++ r) /\ exists c t, w ++ r = c :: t.
Proof.
  intros Hk E. pose proof (word_nonempty w k E (proj1 (letters_of _ Hk))) as Hn. destruct w as [|c t]; [easy|]. inversion Hw; subst. split; [now apply word_solid|]. eexists _, _. reflexivity.
Qed.
Lemma at_open : map lower w = text "begin" \/ map lower w = text "for" \/ map lower w = text "while" -> Scan ic lv p (w ++ r) = Scan ic (lv + 1) (Some (last w 0)) r.
Proof.
  intros H. assert (solid (w ++ r) /\ exists c t, w ++ r = c :: t) as (Hs & c & t & E0) by (destruct H as [H|[H|H]]; eapply kw_solid; try exact H; cbn; tauto).
  rewrite Scan_step, skip_solid by auto. unfold at_position. rewrite E0. rewrite <- E0. destruct H as [H|[H|H]].
  - rewrite (match_this "begin") by (auto; cbn; tauto). reflexivity.
  - rewrite (match_that "begin" "for"), (match_that "if" "for"), (match_that "case" "for"), (match_this "for") by (auto; try discriminate; cbn; tauto). reflexivity.
  - rewrite (match_that "begin" "while"), (match_that "if" "while"), (match_that "case" "while"), (match_that "for" "while"), (match_this "while") by (auto; try discriminate; cbn; tauto). reflexivity.
Qed.
Lemma at_case : map lower w = text "case" -> Scan ic lv p (w ++ r) = Scan (S ic) lv (Some (last w 0)) r.
Proof.
  intros H. destruct (kw_solid "case" ltac:(cbn; tauto) H) as (Hs & c & t & E0).
  rewrite Scan_step, skip_solid by auto. unfold at_position. rewrite E0. rewrite <- E0.
  rewrite (match_that "begin" "case"), (match_that "if" "case"), (match_this "case") by (auto; try discriminate; cbn; tauto). reflexivity.
Qed.
Lemma at_end : map lower w = text "end" -> Scan ic lv p (w ++ r) =
  match ic with S ic => Scan ic lv (Some (last w 0)) r | O => if lv - 1 <? 0 then Some r else Scan O (lv - 1) (Some (last w 0)) r end.
Proof.
  intros H. destruct (kw_solid "end" ltac:(cbn; tauto) H) as (Hs & c & t & E0).
  rewrite Scan_step, skip_solid by auto. unfold at_position. rewrite E0. rewrite <- E0.
  rewrite (match_that "begin" "end"), (match_that "if" "end"), (match_that "case" "end"), (match_that "for" "end"), (match_that "while" "end"), (match_this "end") by (auto; try discriminate; cbn; tauto). reflexivity.
Qed.
Lemma at_if : map lower w = text "if" -> Scan ic lv p (w ++ r) = handle ic lv
  (let (p, s) := skip (Some (last w 0)) r in
   match s with
   | [] => Eof
   | c :: _ => if c =? SEMI then Skip (p, s)
      else match match_word (text "exists") p s with
           | Some q => Skip q
           | None => match match_word (text "not") p s with Some q => Skip q | None => Token OPEN (p, s) end
           end
   end).
Proof.
  intros H. destruct (kw_solid "if" ltac:(cbn; tauto) H) as (Hs & c & t & E0).
  rewrite Scan_step, skip_solid by auto. unfold at_position. rewrite E0. rewrite <- E0.
  rewrite (match_that "begin" "if"), (match_this "if") by (auto; try discriminate; cbn; tauto). reflexivity.
Qed.
End kws.
(** strings, comments *)
Lemma skip_string_quoted q b r : q <> 92 -> quoted_text q b -> forall p, skip_string q false p (b ++ q :: r) = (Some q, r).
Proof.
  intros Hq. induction 1 as [|c b H1 H2 H3 IH|c b H3 IH]; intros p; cbn [app skip_string].
  - now rewrite Z.eqb_refl.
  - assert (c =? q = false) as -> by lia. assert (c =? 92 = false) as -> by lia. apply IH.
  - assert (92 =? q = false) as -> by lia. cbn. destruct (c =? q); [apply IH|]. destruct (c =? 92); apply IH.
Qed.
Lemma scan_quoted ic lv p q b r : q = 39 \/ q = 34 -> quoted_text q b -> r <> [] -> Scan ic lv p (([q] ++ b ++ [q]) ++ r) = Scan ic lv (Some q) r.
Proof.
  intros Hq Hb Hr. rewrite <- !app_assoc. cbn [app]. rewrite Scan_step, skip_solid.
  2: { split; [unfold space; lia|lia]. }
  unfold at_position. assert (~ letter q) as Hl by (unfold letter, lower; destruct ((65 <=? q) && (q <=? 90)) eqn:E; lia).
  rewrite !match_not_letter by (auto; kw). assert (q =? SEMI = false) as -> by (unfold SEMI; lia). assert ((q =? 39) || (q =? 34) = true) as -> by lia.
  rewrite skip_string_quoted by (auto; lia). destruct r; [easy|]. reflexivity.
Qed.
Lemma to_newline_comment b r : ~ In 10 b -> forall p, exists p', to_newline p (b ++ 10 :: r) = (p', 10 :: r).
Proof.
  induction b as [|c b IH]; intros H p; cbn [app to_newline].
  { change (10 =? NL) with true. cbn iota. eauto. }
  assert (c =? NL = false) as -> by (unfold NL; apply Z.eqb_neq; intros ->; apply H; now left).
  apply IH. intros K. apply H. now right.
Qed.
Lemma skip_comment p b r : ~ In 10 b -> exists p', skip p (([45; 45] ++ b) ++ 10 :: r) = (p', 10 :: r).
Proof.
  intros H. unfold skip. cbn [app skip_spaces]. change (space 45) with false. cbn iota. change ((45 =? 45) && (45 =? 45)) with true. cbn iota.
  apply (to_newline_comment ([45; 45] ++ b)). cbn. intuition discriminate.
Qed.
Lemma scan_comment ic lv p b r : ~ In 10 b -> Scan ic lv p (([45; 45] ++ b) ++ 10 :: r) = Scan ic lv None (10 :: r).
Proof.
  intros H. rewrite Scan_step. destruct (skip_comment p b r H) as [p' ->]. rewrite at_char by (unfold letter, lower; cbn; lia). cbn [handle]. now rewrite Scan_space.
Qed.

(** lexemes *)
Lemma spelled_app a b : spelled (a ++ b) = spelled a ++ spelled b.
Proof. unfold spelled. now rewrite map_app, concat_app. Qed.
Lemma spelled_cons x l : spelled (x :: l) = spell x ++ spelled l.
Proof. reflexivity. Qed.
Lemma spell_nonempty x : fine x -> spell x <> [].
Proof. destruct x; cbn; try discriminate. tauto. Qed.
Definition head_of (P : Prop) (l : list lexeme) : Prop := match l with [] => False | x :: k => fine x /\ may_stand P x k end.
Lemma first_ends y r : fine y -> (match y with Word _ => False | _ => True end) -> ends_word (spell y ++ r).
Proof.
  destruct y as [c|q b|b|w|c|]; cbn; intros H Hw; try easy; unfold word_byte in *; lia.
Qed.
Lemma first_delimited y r : fine y -> separates y -> delimited (spell y ++ r).
Proof. destruct y as [c|q b|b|w|c|]; cbn; intros H Hw; try easy; unfold space, SEMI; lia. Qed.
Lemma lexemes_head P l : lexemes_ok P l -> match l with [] => True | x :: k => fine x /\ may_stand P x k /\ lexemes_ok (separates x) k end.
Proof. destruct l; auto. Qed.
Lemma keyword_step w k tail (P : Prop) p : keyword w -> lexemes_ok P (Word w :: k) -> (P -> prev_ok p = true) ->
  Forall word_byte w /\ prev_ok p = true /\ delimited (spelled k ++ tail) /\ lexemes_ok False k.
Proof.
  intros Hk ([F1 F2] & Hm & Hl) Hp. destruct k as [|y k]; [easy|]. destruct Hm as [_ Hm]. destruct (Hm Hk) as [HP Hs].
  split; [auto|split; [auto|split; [|exact Hl]]]. rewrite spelled_cons, <- app_assoc. apply first_delimited; auto. now destruct Hl.
Qed.
Lemma lexemes_weak (P Q : Prop) l : (Q -> P) -> lexemes_ok Q l -> lexemes_ok P l.
Proof.
  intros H. destruct l as [|x l]; auto. intros (F & M & L). split; [auto|split; [|auto]]. destruct x as [c|q b|b|w|c|]; cbn in *; auto.
  destruct l as [|y l]; [auto|]. destruct M as [M1 M2]. split; [auto|]. intros K. destruct (M2 K). auto.
Qed.
(** the invariant: from one position of the lexemes to a later one *)
Definition reach (ic : nat) (lv : Z) (p : option Z) (l : list lexeme) (ic' : nat) (lv' : Z) (k : list lexeme) : Prop :=
  exists (P' : Prop) p', (P' -> prev_ok p' = true) /\ lexemes_ok P' k /\ forall tail, Scan ic lv p (spelled l ++ tail) = Scan ic' lv' p' (spelled k ++ tail).
Lemma plain_step' x k P ic lv p : plain x -> k <> [] -> lexemes_ok P (x :: k) ->
  exists p', (separates x -> prev_ok p' = true) /\ forall tail, Scan ic lv p (spelled (x :: k) ++ tail) = Scan ic lv p' (spelled k ++ tail).
Proof.
  intros Hp Hk (Hf & Hm & Hl). destruct k as [|y k]; [easy|]. destruct Hl as (Fy & My & Hl).
  destruct x as [c|q b|b|w|c|].
  - exists (Some c). split; [intros _; apply space_iff in Hf; cbn; rewrite Hf; now rewrite orb_true_r|]. intros tail. apply (Scan_space ic lv p c (spelled (y :: k) ++ tail)). now apply space_iff.
  - exists (Some q). split; [easy|]. intros tail. rewrite spelled_cons, <- app_assoc. destruct Hf as [Hq Hb]. apply scan_quoted; auto. rewrite spelled_cons, <- app_assoc. intros E. apply app_eq_nil in E as [E _]. now apply spell_nonempty in Fy.
  - exists None. split; [easy|]. intros tail. cbn in Hm. subst y. rewrite spelled_cons, <- app_assoc, spelled_cons. cbn [spell app]. now apply (scan_comment ic lv p b).
  - cbn in Hm. destruct Hm as [Hw Hs]. destruct Hf as [H1 H2]. destruct w as [|c w]; [easy|]. exists (last (map Some w) (Some c)). split; [easy|]. intros tail. inversion H2 as [|? ? Hc Hw']; subst.
    rewrite spelled_cons, <- app_assoc. cbn [spell].
    rewrite <- (scan_inside ic lv w (Some c) (spelled (y :: k) ++ tail) (word_prev _ Hc) Hw').
    cbn [app]. rewrite Scan_step, skip_solid by now apply word_solid. unfold at_position. rewrite app_comm_cons.
    cbn [plain] in Hp. apply keyword_iff in Hp as (K1 & K2 & K3 & K4 & K5 & K6).
    assert (He : ends_word (spelled (y :: k) ++ tail)) by (rewrite spelled_cons, <- app_assoc; now apply first_ends).
    rewrite !match_other_word by (auto; try kw; discriminate).
    cbn [app]. assert (c =? SEMI = false) as -> by (unfold SEMI, word_byte in *; lia). assert ((c =? 39) || (c =? 34) = false) as -> by (unfold word_byte in *; lia). reflexivity.
  - exists (Some c). split; [easy|]. intros tail.
    rewrite spelled_cons, <- app_assoc. cbn [spell app]. destruct Hf as (F1 & F2 & F3 & F4 & F5 & F6 & F7). rewrite Scan_step, skip_solid.
    + rewrite at_char; auto. intros L. apply F7. now apply letter_word.
    + split; [unfold space; lia|]. intros ->. cbn in Hm. specialize (Hm eq_refl). rewrite spelled_cons. destruct Hm as [M1 M2].
      destruct y as [d|q b|b|w|d|]; cbn; try easy.
      * cbn in Fy. destruct d as [|d|]; try easy. repeat (destruct d as [d|d|]; try exact I). cbn in Fy. lia.
      * cbn in Fy. destruct Fy as [[-> | ->] _]; exact I.
      * destruct Fy as [G1 G2]. destruct w as [|d w]; [easy|]. inversion G2 as [|? ? Hd]; subst. cbn. destruct d as [|d|]; try easy. repeat (destruct d as [d|d|]; try exact I). unfold word_byte in Hd. lia.
      * destruct d as [|d|]; try easy. repeat (destruct d as [d|d|]; try exact I). now apply M1.
  - easy.
Qed.
Definition from (P : Prop) (p : option Z) : Prop := P -> prev_ok p = true.
Lemma reach_trans ic lv p l ic1 lv1 k1 ic2 lv2 k2 P p1 : from P p1 -> (forall tail, Scan ic lv p (spelled l ++ tail) = Scan ic1 lv1 p1 (spelled k1 ++ tail)) -> reach ic1 lv1 p1 k1 ic2 lv2 k2 -> reach ic lv p l ic2 lv2 k2.
Proof. intros _ H (P' & p' & H1 & H2 & H3). exists P', p'. split; [auto|split; [auto|]]. intros tail. now rewrite H, H3. Qed.
Lemma app_not_nil {A} (a b : list A) : b <> [] -> a ++ b <> [].
Proof. intros H E. apply app_eq_nil in E. tauto. Qed.
Lemma text_case w : word_is w "case" -> keyword w. Proof. unfold keyword. tauto. Qed.
Lemma text_end w : word_is w "end" -> keyword w. Proof. unfold keyword. tauto. Qed.
Lemma text_if w : word_is w "if" -> keyword w. Proof. unfold keyword. tauto. Qed.
Lemma case_step w k (P : Prop) ic lv p : word_is w "case" -> lexemes_ok P (Word w :: k) -> from P p ->
  forall tail, Scan ic lv p (spelled (Word w :: k) ++ tail) = Scan (S ic) lv (Some (last w 0)) (spelled k ++ tail).
Proof.
  intros Hw Hl Hp tail. destruct (keyword_step w k tail P p (text_case _ Hw) Hl Hp) as (H1 & H2 & H3 & _). rewrite spelled_cons, <- app_assoc. now apply at_case.
Qed.
Lemma end_step w k (P : Prop) ic lv p : word_is w "end" -> lexemes_ok P (Word w :: k) -> from P p ->
  forall tail, Scan ic lv p (spelled (Word w :: k) ++ tail) =
    match ic with S ic => Scan ic lv (Some (last w 0)) (spelled k ++ tail) | O => if lv - 1 <? 0 then Some (spelled k ++ tail) else Scan O (lv - 1) (Some (last w 0)) (spelled k ++ tail) end.
Proof.
  intros Hw Hl Hp tail. destruct (keyword_step w k tail P p (text_end _ Hw) Hl Hp) as (H1 & H2 & H3 & _). rewrite spelled_cons, <- app_assoc. now apply at_end.
Qed.
Lemma semi_step k (P : Prop) ic lv p : forall tail, Scan ic lv p (spelled (Semicolon :: k) ++ tail) = if lv =? 0 then Some (spelled k ++ tail) else Scan ic lv (Some 59) (spelled k ++ tail).
Proof.
  intros tail. rewrite spelled_cons, <- app_assoc. cbn [spell app]. rewrite Scan_step, skip_solid by (split; [reflexivity|lia]).
  unfold at_position. assert (~ letter 59) as Hl by (unfold letter, lower; cbn; lia). rewrite !match_not_letter by (auto; kw). reflexivity.
Qed.
Lemma lexemes_tail P x k : lexemes_ok P (x :: k) -> lexemes_ok (separates x) k.
Proof. now intros (_ & _ & H). Qed.
Lemma expression_reach e : expression e -> forall k (P : Prop) ic lv p, k <> [] -> lexemes_ok P (e ++ k) -> from P p -> reach ic lv p (e ++ k) ic lv k.
Proof.
  induction 1 as [|x l Hx He IH|c e n l Hc Hn He1 IH1 He2 IH2]; intros k P ic lv p Hk Hl Hp.
  - exists P, p. split; [auto|split; [auto|reflexivity]].
  - cbn [app] in *. destruct (plain_step' x (l ++ k) P ic lv p Hx (app_not_nil _ _ Hk) Hl) as (p' & H1 & H2).
    eapply (reach_trans _ _ _ _ _ _ _ _ _ _ (separates x) p'); [exact H1|exact H2|]. apply (IH k (separates x)); auto. now apply lexemes_tail in Hl.
  - assert (E : (Word c :: e ++ Word n :: l) ++ k = Word c :: e ++ (Word n :: l ++ k)) by (cbn; now rewrite <- app_assoc). rewrite E in *.
    eapply (reach_trans _ _ _ _ _ _ _ _ _ _ False (Some (last c 0))); [easy|apply (case_step c _ P); auto|].
    apply lexemes_tail in Hl. destruct (IH1 (Word n :: l ++ k) _ (S ic) lv (Some (last c 0)) ltac:(discriminate) Hl ltac:(easy)) as (P1 & p1 & A1 & A2 & A3).
    eapply (reach_trans _ _ _ _ _ _ _ _ _ _ P1 p1); [exact A1|exact A3|].
    eapply (reach_trans _ _ _ _ ic lv (l ++ k) _ _ _ False (Some (last n 0))); [easy|intros tail; now rewrite (end_step n (l ++ k) P1) by auto|].
    apply (IH2 k False); auto; [now apply lexemes_tail in A2|easy].
Qed.
(** the spaces behind IF *)
Lemma skip_spaces_spelled sp : spaces sp -> forall k (P : Prop) p, from P p -> lexemes_ok P (sp ++ k) ->
  exists p', (sp <> [] \/ P -> prev_ok p' = true) /\ lexemes_ok (sp <> [] \/ P) k /\ forall s, skip_spaces p (spelled sp ++ s) = skip_spaces p' s.
Proof.
  intros H. induction H as [|x sp Hx Hs IH]; intros k P p Hp Hl.
  - exists p. split; [intros [H|H]; [easy|auto]|]. split; [|reflexivity]. revert Hl. apply lexemes_weak. auto.
  - destruct x; try easy. destruct Hl as (F & _ & Hl). cbn [fine] in F. apply space_iff in F.
    destruct (IH k (separates (Space c)) (Some c)) as (p' & H1 & H2 & H3); [intros _; cbn; rewrite F; apply orb_true_r|exact Hl|].
    exists p'. split; [intros _; apply H1; right; exact I|]. split; [revert H2; apply lexemes_weak; intros _; left; discriminate|].
    intros s. rewrite spelled_cons, <- app_assoc. cbn [spell app skip_spaces]. rewrite F. apply H3.
Qed.
Lemma lexemes_app P a k : lexemes_ok P (a ++ k) -> exists Q : Prop, lexemes_ok Q k.
Proof. revert P; induction a as [|x a IH]; intros P H; [eauto|]. destruct H as (_ & _ & H). eauto. Qed.
(** the position behind the spaces, if a lexeme is there that is no space and no comment *)
Lemma solid_first x k tail (P : Prop) : fine x -> may_stand P x k -> lexemes_ok (separates x) k -> (forall c, x <> Space c) -> (forall b, x <> Comment b) -> solid (spell x ++ spelled k ++ tail).
Proof.
  intros F M L N1 N2. destruct x as [c|q b|b|w|c|].
  - now destruct (N1 c).
  - destruct F as [Hq _]. cbn. split; [unfold space; lia|lia].
  - now destruct (N2 b).
  - destruct F as [F1 F2]. destruct w as [|c w]; [easy|]. inversion F2; subst. now apply word_solid.
  - destruct F as (F1 & F2 & F3 & F4 & F5 & F6 & F7). cbn [spell app]. split; [unfold space; lia|]. intros ->. destruct k as [|y k]; [easy|]. cbn in M. specialize (M eq_refl). destruct M as [M1 M2].
    destruct L as (Fy & _). rewrite spelled_cons, <- app_assoc. destruct y as [d|q b|b|w|d|]; cbn; try easy.
    + cbn in Fy. destruct d as [|d|]; try easy. repeat (destruct d as [d|d|]; try exact I). cbn in Fy. lia.
    + cbn in Fy. destruct Fy as [[-> | ->] _]; exact I.
    + destruct Fy as [G1 G2]. destruct w as [|d w]; [easy|]. inversion G2 as [|? ? Hd]; subst. cbn. destruct d as [|d|]; try easy. repeat (destruct d as [d|d|]; try exact I). unfold word_byte in Hd. lia.
    + destruct d as [|d|]; try easy. repeat (destruct d as [d|d|]; try exact I). now apply M1.
  - split; [reflexivity|cbn; lia].
Qed.
Lemma skip_of p s p' s' : skip_spaces p s = skip_spaces p' s' -> skip p s = skip p' s'.
Proof. unfold skip. now intros ->. Qed.
(** behind IF *)
Lemma if_step w sp k (P : Prop) ic lv p : word_is w "if" -> spaces sp -> lexemes_ok P (Word w :: sp ++ k) -> from P p -> (forall tail, solid (spelled k ++ tail)) ->
  exists p', (sp <> [] -> prev_ok p' = true) /\ lexemes_ok (sp <> []) k /\ forall tail, Scan ic lv p (spelled (Word w :: sp ++ k) ++ tail) = handle ic lv
   (match spelled k ++ tail with
   | [] => Eof
   | c :: _ => if c =? SEMI then Skip (p', spelled k ++ tail)
      else match match_word (text "exists") p' (spelled k ++ tail) with
           | Some q => Skip q
           | None => match match_word (text "not") p' (spelled k ++ tail) with Some q => Skip q | None => Token OPEN (p', spelled k ++ tail) end
           end
   end).
Proof.
  intros Hw Hsp Hl Hp Hs. pose proof (lexemes_tail _ _ _ Hl) as Hl'. cbn [separates] in Hl'.
  destruct (skip_spaces_spelled sp Hsp k False (Some (last w 0)) ltac:(easy) Hl') as (p' & H1 & H2 & H3).
  exists p'. split; [auto|]. split; [revert H2; apply lexemes_weak; tauto|]. intros tail.
  destruct (keyword_step w (sp ++ k) tail P p (text_if _ Hw) Hl Hp) as (K1 & K2 & K3 & _).
  rewrite spelled_cons, <- app_assoc. cbn [spell]. rewrite at_if by auto. rewrite spelled_app, <- app_assoc.
  rewrite (skip_of _ _ _ _ (H3 (spelled k ++ tail))), skip_solid by apply Hs. reflexivity.
Qed.
Lemma opener_reach o : opener o -> forall k (P : Prop) lv p, k <> [] -> lexemes_ok P (o ++ k) -> from P p -> reach 0 lv p (o ++ k) 0 (lv + 1) k.
Proof.
  intros [w Hw|w sp x Hw Hsp Hx Hn1 Hn2 Hv] k P lv p Hk Hl Hp.
  - cbn [app] in *. exists False, (Some (last w 0)). split; [easy|]. split; [now apply lexemes_tail in Hl|]. intros tail.
    destruct (keyword_step w k tail P p) as (H1 & H2 & H3 & _); auto; [unfold keyword; tauto|]. rewrite spelled_cons, <- app_assoc. now apply at_open.
  - assert (E : (Word w :: sp ++ [x]) ++ k = Word w :: sp ++ (x :: k)) by (cbn; now rewrite <- app_assoc). rewrite E in *.
    destruct (lexemes_app _ (Word w :: sp) _ Hl) as (Q & F & M & L).
    destruct (if_step w sp (x :: k) P 0 lv p Hw Hsp Hl Hp) as (p' & H1 & H2 & H3).
    { intros tail. rewrite spelled_cons, <- app_assoc. now apply (solid_first x k tail Q). }
    destruct (plain_step' x k _ 0 (lv + 1) p' Hx Hk H2) as (p2 & G1 & G2).
    exists (separates x), p2. split; [auto|]. split; [now apply lexemes_tail in H2|]. intros tail. rewrite H3, <- G2. clear H3 G2.
    assert (Hword : match_word (text "exists") p' (spelled (x :: k) ++ tail) = None /\ match_word (text "not") p' (spelled (x :: k) ++ tail) = None).
    { rewrite spelled_cons, <- app_assoc. destruct x as [c|q b|b|v|c|]; [now destruct (Hn1 c)| | | | |easy].
      - destruct F as [Hq _]. cbn [spell app]. assert (~ letter q) by (unfold letter, lower; destruct ((65 <=? q) && (q <=? 90)) eqn:E2; lia). split; apply match_not_letter; auto; kw.
      - now destruct (Hn2 b).
      - destruct F as [F1 F2]. destruct (Hv v eq_refl) as [V1 V2]. assert (He : ends_word (spelled k ++ tail)).
        { destruct k as [|y k]; [easy|]. destruct L as (Fy & _). destruct M as [My _]. rewrite spelled_cons, <- app_assoc. now apply first_ends. }
        split; apply match_other_word; auto; kw.
      - destruct F as (F1 & F2 & F3 & F4 & F5 & F6 & F7). assert (~ letter c) by (intros L2; apply F7; now apply letter_word). split; apply match_not_letter; auto; kw. }
    destruct Hword as [-> ->]. destruct (spelled (x :: k) ++ tail) as [|c r] eqn:Es.
    { exfalso. apply app_eq_nil in Es as [Es _]. rewrite spelled_cons in Es. apply app_eq_nil in Es as [Es _]. now apply spell_nonempty in F. }
    assert (c =? SEMI = false) as ->; [|reflexivity]. unfold SEMI.
    rewrite spelled_cons in Es. destruct x as [d|q b|b|v|d|]; [now destruct (Hn1 d)| | | | |easy].
    + injection Es as <- _. destruct F. lia.
    + now destruct (Hn2 b).
    + destruct F as [F1 F2]. destruct v as [|d v]; [easy|]. injection Es as <- _. inversion F2 as [|? ? Hd]; subst. unfold word_byte in Hd. lia.
    + injection Es as <- _. destruct F as (F1 & F2 & F3 & F4 & F5 & _). lia.
Qed.
Lemma code_reach b l : code b l -> forall k (P : Prop) lv p, k <> [] -> (b = true -> 0 < lv) -> 0 <= lv -> lexemes_ok P (l ++ k) -> from P p -> reach 0 lv p (l ++ k) 0 lv k.
Proof.
  induction 1 as [b|b x l Hx H IH|b c e n l Hc Hn He H IH|b o i n l Ho Hn Hi IHi H IH|b w sp v s l Hw Hsp Hv Hs H IH|b l Hb H IH|b w sp l Hb Hw Hsp H IH]; intros k P lv p Hk Hlv Hlv0 Hl Hp.
  - exists P, p. split; [auto|split; [auto|reflexivity]].
  - cbn [app] in *. destruct (plain_step' x (l ++ k) P 0 lv p Hx (app_not_nil _ _ Hk) Hl) as (p' & H1 & H2).
    eapply (reach_trans _ _ _ _ _ _ _ _ _ _ (separates x) p'); [exact H1|exact H2|]. apply (IH k (separates x)); auto. now apply lexemes_tail in Hl.
  - assert (E : (Word c :: e ++ Word n :: l) ++ k = Word c :: e ++ (Word n :: l ++ k)) by (cbn; now rewrite <- app_assoc). rewrite E in *.
    eapply (reach_trans _ _ _ _ _ _ _ _ _ _ False (Some (last c 0))); [easy|apply (case_step c _ P); auto|].
    apply lexemes_tail in Hl. destruct (expression_reach e He (Word n :: l ++ k) _ 1%nat lv (Some (last c 0)) ltac:(discriminate) Hl ltac:(easy)) as (P1 & p1 & A1 & A2 & A3).
    eapply (reach_trans _ _ _ _ _ _ _ _ _ _ P1 p1); [exact A1|exact A3|].
    eapply (reach_trans _ _ _ _ 0 lv (l ++ k) _ _ _ False (Some (last n 0))); [easy|intros tail; now rewrite (end_step n (l ++ k) P1) by auto|].
    apply (IH k False); auto; [now apply lexemes_tail in A2|easy].
  - assert (E : (o ++ i ++ Word n :: l) ++ k = o ++ (i ++ (Word n :: l ++ k))) by (now rewrite <- !app_assoc). rewrite E in *.
    destruct (opener_reach o Ho (i ++ Word n :: l ++ k) P lv p) as (P1 & p1 & A1 & A2 & A3); auto; [now apply app_not_nil|].
    eapply (reach_trans _ _ _ _ _ _ _ _ _ _ P1 p1); [exact A1|exact A3|].
    destruct (IHi (Word n :: l ++ k) P1 (lv + 1) p1 ltac:(discriminate) ltac:(lia) ltac:(lia) A2 A1) as (P2 & p2 & B1 & B2 & B3).
    eapply (reach_trans _ _ _ _ _ _ _ _ _ _ P2 p2); [exact B1|exact B3|].
    eapply (reach_trans _ _ _ _ 0 lv (l ++ k) _ _ _ False (Some (last n 0))); [easy| |].
    + intros tail. rewrite (end_step n (l ++ k) P2) by auto. replace (lv + 1 - 1) with lv by lia. destruct (lv <? 0) eqn:E3; [lia|reflexivity].
    + apply (IH k False); auto; [now apply lexemes_tail in B2|easy].
  - assert (E : (Word w :: sp ++ Word v :: s :: l) ++ k = Word w :: sp ++ (Word v :: (s :: l) ++ k)) by (cbn; now rewrite <- app_assoc). rewrite E in *.
    destruct (lexemes_app _ (Word w :: sp) _ Hl) as (Q & F & M & L).
    destruct (if_step w sp (Word v :: (s :: l) ++ k) P 0 lv p Hw Hsp Hl Hp) as (p' & H1 & H2 & H3).
    { intros tail. rewrite spelled_cons, <- app_assoc. apply (solid_first (Word v) ((s :: l) ++ k) tail Q); auto; discriminate. }
    assert (Hne : sp <> []).
    { intros ->. destruct Hl as (_ & M2 & _). cbn in M2. tauto. }
    specialize (H1 Hne). destruct F as [F1 F2]. cbn [app] in L. pose proof L as (Fs & _).
    assert (Hd : forall tail, delimited (spelled ((s :: l) ++ k) ++ tail)) by (intros tail; cbn [app]; rewrite spelled_cons, <- app_assoc; now apply first_delimited).
    eapply (reach_trans _ _ _ _ 0 lv ((s :: l) ++ k) _ _ _ False (Some (last v 0))); [easy| |].
    + intros tail. rewrite H3, spelled_cons, <- app_assoc. cbn [spell]. destruct v as [|c v]; [easy|]. specialize (Hd tail).
      remember (spelled ((s :: l) ++ k) ++ tail) as X eqn:EX. cbn [app]. change (c :: v ++ X) with ((c :: v) ++ X).
      assert (Hc : word_byte c) by now inversion F2. clear EX. assert (c =? SEMI = false) as -> by (unfold SEMI, word_byte in *; lia).
      destruct Hv as [Hv|Hv].
      * rewrite (match_this p' (c :: v) X H1 Hd "exists") by (auto; cbn; tauto). reflexivity.
      * rewrite (match_that p' (c :: v) X F2 Hd "exists" "not") by (auto; try discriminate; cbn; tauto).
        rewrite (match_this p' (c :: v) X H1 Hd "not") by (auto; cbn; tauto). reflexivity.
    + apply (IH k False); [auto|auto|auto| |easy]. apply lexemes_weak with (2 := L). intros [].
  - cbn [app] in *. eapply (reach_trans _ _ _ _ 0 lv (l ++ k) _ _ _ True (Some 59)); [now intros _| |].
    + intros tail. rewrite (semi_step (l ++ k) P). specialize (Hlv Hb). destruct (lv =? 0) eqn:E3; [lia|reflexivity].
    + apply (IH k True); auto; [now apply lexemes_tail in Hl|now intros _].
  - assert (E : (Word w :: sp ++ Semicolon :: l) ++ k = Word w :: sp ++ (Semicolon :: l ++ k)) by (cbn; now rewrite <- app_assoc). rewrite E in *.
    destruct (if_step w sp (Semicolon :: l ++ k) P 0 lv p Hw Hsp Hl Hp) as (p' & H1 & H2 & H3).
    { intros tail. split; [reflexivity|discriminate]. }
    eapply (reach_trans _ _ _ _ 0 lv (l ++ k) _ _ _ True (Some 59)); [now intros _| |].
    + intros tail. rewrite H3. change (spelled (Semicolon :: l ++ k) ++ tail) with (59 :: spelled (l ++ k) ++ tail) at 1. cbn iota.
      change (59 =? SEMI) with true. cbn iota. cbn [handle]. rewrite (semi_step (l ++ k) P). specialize (Hlv Hb). destruct (lv =? 0) eqn:E3; [lia|reflexivity].
    + apply (IH k True); auto; [now apply lexemes_tail in H2|now intros _].
Qed.
Lemma statement_scan l : statement l -> lexemes_ok True l -> forall tail, Scan 0 0 None (spelled l ++ tail) = Some tail.
Proof.
  intros [t Ht|t w sp Ht Hw Hsp] Hl tail.
  - destruct (code_reach _ _ Ht [Semicolon] True 0 None) as (P & p & H1 & H2 & H3); try easy. rewrite H3. now rewrite (semi_step [] P).
  - destruct (code_reach _ _ Ht (Word w :: sp ++ [Semicolon]) True 0 None) as (P & p & H1 & H2 & H3); try easy. rewrite H3.
    destruct (if_step w sp [Semicolon] P 0 0 p Hw Hsp H2 H1) as (p' & K1 & K2 & K3).
    { intros t'. split; [reflexivity|discriminate]. }
    rewrite K3. change (spelled [Semicolon] ++ tail) with (59 :: tail). cbn iota. change (59 =? SEMI) with true. cbn iota. cbn [handle].
    change (59 :: tail) with (spelled [Semicolon] ++ tail). now rewrite (semi_step [] P).
Qed.
(** separator_read *)
Lemma Scan_skip ic lv p s : Scan ic lv p s = let (p1, s1) := skip p s in Scan ic lv p1 s1.
Proof.
  assert (H : let (p1, s1) := skip p s in s1 = [] \/ solid s1 \/ exists r, s1 = 10 :: r).
  { unfold skip. assert (H : let (p1, s1) := skip_spaces p s in match s1 with [] => True | c :: _ => space c = false end).
    { clear. revert p; induction s as [|c s IH]; intros p; [exact I|]. cbn [skip_spaces]. destruct (space c) eqn:E; [apply IH|exact E]. }
    destruct (skip_spaces p s) as [p1 s1]. destruct s1 as [|a [|b r]]; [auto| |].
    - right; left. split; [exact H|auto].
    - destruct ((a =? 45) && (b =? 45)) eqn:E.
      + assert (G : forall t q, let (q1, t1) := to_newline q t in t1 = [] \/ exists r, t1 = 10 :: r).
        { clear. induction t as [|c t IH]; intros q; [now left|]. cbn [to_newline]. destruct (c =? NL) eqn:E; [|apply IH]. right. exists t. unfold NL in E. f_equal. lia. }
        specialize (G (a :: b :: r) p1). destruct (to_newline p1 (a :: b :: r)) as [q1 t1]. tauto.
      + right; left. split; [exact H|]. intros ->. cbn in E. destruct b as [|b|]; try exact I. repeat (destruct b as [b|b|]; try exact I). discriminate. }
  rewrite (Scan_step ic lv p s). destruct (skip p s) as [p1 s1]. destruct H as [->|[H|[r ->]]].
  - reflexivity.
  - now rewrite Scan_step, skip_solid.
  - rewrite at_char by (unfold letter, lower; cbn; lia). cbn [handle]. now rewrite Scan_space.
Qed.
Lemma to_newline_or p s : snd (to_newline p s) = [] \/ exists r, snd (to_newline p s) = 10 :: r.
Proof. revert p; induction s as [|c s IH]; intros p; [now left|]. cbn [to_newline]. destruct (c =? NL) eqn:E; [|apply IH]. right. exists s. unfold NL in E. cbn. f_equal. lia. Qed.
(** [buf] without its last part *)
Lemma firstn_before {A} (a b : list A) : firstn (length (a ++ b) - length b) (a ++ b) = a.
Proof. rewrite app_length, Nat.add_sub, firstn_app, Nat.sub_diag, firstn_all. cbn. apply app_nil_r. Qed.
Lemma read_of buf p c s rest : skip None buf = (p, c :: s) -> c <> 35 -> Scan 0 0 None buf = Some rest -> read_block buf = Some (firstn (length buf - length rest) buf, rest).
Proof.
  intros H1 H2 H3. rewrite Scan_skip, H1 in H3. unfold read_block. destruct buf as [|x buf]; [now inversion H1|].
  rewrite H1. assert (c =? 35 = false) as -> by lia. unfold Scan in H3. now rewrite H3.
Qed.
Lemma split_spaces l : In Semicolon l -> exists sp x k, l = sp ++ x :: k /\ spaces sp /\ (forall c, x <> Space c).
Proof.
  induction l as [|x l IH]; intros H; [easy|]. destruct x as [c| | | | |]; [|exists [], (Quoted q b), l|exists [], (Comment b), l|exists [], (Word w), l|exists [], (Symbol c), l|exists [], Semicolon, l]; try (split; [reflexivity|split; [constructor|discriminate]]).
  destruct H as [H|H]; [easy|]. destruct (IH H) as (sp & x & k & -> & H1 & H2). exists (Space c :: sp), x, k. split; [reflexivity|]. split; [now constructor|auto].
Qed.
Lemma skip_first l tail : In Semicolon l -> lexemes_ok True l -> exists p c s, skip None (spelled l ++ tail) = (p, c :: s) /\ c <> 35.
Proof.
  intros Hin Hl. destruct (split_spaces l Hin) as (sp & x & k & -> & Hsp & Hx).
  destruct (lexemes_app _ sp _ Hl) as (Q & F & M & L).
  destruct (skip_spaces_spelled sp Hsp (x :: k) True None ltac:(easy) Hl) as (p' & _ & _ & H3).
  rewrite spelled_app, <- app_assoc, (skip_of _ _ _ _ (H3 (spelled (x :: k) ++ tail))). rewrite spelled_cons, <- app_assoc.
  assert (D : (exists b, x = Comment b) \/ forall b, x <> Comment b) by (destruct x; (left; now eexists) || (right; discriminate)).
  destruct D as [[b ->]|D].
  - destruct k as [|y k]; [easy|]. cbn in M. subst y. destruct (skip_comment p' b (spelled k ++ tail) F) as [p2 E]. exists p2, 10, (spelled k ++ tail). split; [exact E|lia].
  - rewrite skip_solid by now apply (solid_first x k tail Q).
    destruct x as [c|q b|b|w|c|]; [now destruct (Hx c)| |now destruct (D b)| | |].
    + exists p', q, ((b ++ [q]) ++ spelled k ++ tail). split; [reflexivity|]. destruct F. lia.
    + destruct F as [F1 F2]. destruct w as [|d w]; [easy|]. inversion F2 as [|? ? Hd]; subst. eexists _, _, _. split; [reflexivity|]. unfold word_byte in Hd. lia.
    + eexists _, _, _. split; [reflexivity|]. cbn in F. lia.
    + eexists _, _, _. split; [reflexivity|lia].
Qed.
Lemma statement_semicolon l : statement l -> In Semicolon l.
Proof. intros [t _|t w sp _ _ _]; apply in_or_app; right; [now left|]. right. apply in_or_app. right. now left. Qed.
Lemma statement_read l tail : statement l -> lexemes_ok True l -> read_block (spelled l ++ tail) = Some (spelled l, tail).
Proof.
  intros H Hl. destruct (skip_first l tail (statement_semicolon l H) Hl) as (p & c & s & E & Hc).
  rewrite (read_of _ _ _ _ _ E Hc (statement_scan l H Hl tail)). now rewrite firstn_before.
Qed.
(** blanks in front belong to the statement *)
Lemma code_spaces b sp l : spaces sp -> code b l -> code b (sp ++ l).
Proof. induction 1 as [|x sp Hx Hs IH]; intros H; [exact H|]. cbn [app]. apply C_plain; [destruct x; easy|auto]. Qed.
Lemma statement_spaces sp l : spaces sp -> statement l -> statement (sp ++ l).
Proof. intros Hs [t H|t w s H Hw H2]; rewrite app_assoc; constructor; auto using code_spaces. Qed.
Lemma blank_spaces s : blank s -> exists sp, spaces sp /\ spelled sp = s /\ forall l, lexemes_ok True l -> lexemes_ok True (sp ++ l).
Proof.
  induction 1 as [|c s Hc Hs (sp & H1 & H2 & H3)].
  - exists []. repeat split; auto. constructor.
  - exists (Space c :: sp). split; [now constructor|]. split; [rewrite spelled_cons, H2; reflexivity|]. intros l Hl. split; [exact Hc|]. split; [exact I|]. apply lexemes_weak with (2 := H3 l Hl). now intros _.
Qed.
Lemma blank_read s l tail : blank s -> statement l -> lexemes_ok True l -> read_block (s ++ spelled l ++ tail) = Some (s ++ spelled l, tail).
Proof.
  intros Hs H Hl. destruct (blank_spaces s Hs) as (sp & H1 & <- & H3). rewrite app_assoc, <- spelled_app.
  apply statement_read; [now apply statement_spaces|auto].
Qed.
(** what is left behind a block is the end of the buffer *)
Definition suffix (a b : list Z) : Prop := exists u, b = u ++ a.
Lemma suffix_refl a : suffix a a. Proof. now exists []. Qed.
Lemma suffix_trans a b c : suffix a b -> suffix b c -> suffix a c.
Proof. intros [u ->] [v ->]. exists (v ++ u). apply app_assoc. Qed.
Lemma suffix_cons a c b : suffix a b -> suffix a (c :: b).
Proof. intros [u ->]. now exists (c :: u). Qed.
Lemma suffix_nil a : suffix [] a. Proof. exists a. now rewrite app_nil_r. Qed.
Lemma skip_spaces_suffix s : forall p, suffix (snd (skip_spaces p s)) s.
Proof. induction s as [|c s IH]; intros p; cbn; [apply suffix_refl|]. destruct (space c); [apply suffix_cons, IH|apply suffix_refl]. Qed.
Lemma to_newline_suffix s : forall p, suffix (snd (to_newline p s)) s.
Proof. induction s as [|c s IH]; intros p; cbn; [apply suffix_refl|]. destruct (c =? NL); [apply suffix_refl|apply suffix_cons, IH]. Qed.
Lemma skip_suffix p s : suffix (snd (skip p s)) s.
Proof.
  unfold skip. pose proof (skip_spaces_suffix s p) as H. destruct (skip_spaces p s) as [p1 s1]. cbn in H.
  destruct s1 as [|a [|b r]]; auto. destruct ((a =? 45) && (b =? 45)); auto. eapply suffix_trans; [apply to_newline_suffix|exact H].
Qed.
Lemma skip_string_suffix q s : forall b p, suffix (snd (skip_string q b p s)) s.
Proof. induction s as [|c s IH]; intros b p; cbn; [apply suffix_refl|]. destruct (c =? q); [destruct b; [apply suffix_cons, IH|apply suffix_cons, suffix_refl]|apply suffix_cons, IH]. Qed.
Lemma match_suffix w p s p' s' : match_word w p s = Some (p', s') -> suffix s' s.
Proof.
  unfold match_word. intros H. destruct (match p with None => true | Some b => (b =? SEMI) || space b end); [|easy].
  destruct (_ <? _)%nat; [easy|]. destruct (is_case _ _); [|easy].
  destruct (skipn (length w) s) as [|c r] eqn:Es; [easy|]. destruct (space c || (c =? SEMI)); [|easy]. injection H as <- <-. rewrite <- Es. exists (firstn (length w) s). now rewrite firstn_skipn.
Qed.
Lemma at_suffix p s : match at_position p s with Token _ (_, s') | Skip (_, s') => suffix s' s | Eof => True end.
Proof.
  unfold at_position. destruct s as [|c r]; [exact I|].
  repeat match goal with
  | |- context [match match_word (text ?w) ?p (c :: r) with _ => _ end] =>
      let E := fresh in destruct (match_word (text w) p (c :: r)) as [[? ?]|] eqn:E; [apply match_suffix in E; try exact E|clear E]
  end.
  - pose proof (skip_suffix o l) as Hs. destruct (skip o l) as [p1 s1]. cbn in Hs. destruct s1 as [|d s1]; [exact I|].
    pose proof (suffix_trans _ _ _ Hs H) as Hs'. destruct (d =? SEMI); [auto|].
    destruct (match_word (text "exists") p1 (d :: s1)) as [[? ?]|] eqn:E1; [apply match_suffix in E1; eapply suffix_trans; eauto|].
    destruct (match_word (text "not") p1 (d :: s1)) as [[? ?]|] eqn:E2; [apply match_suffix in E2; eapply suffix_trans; eauto|]. auto.
  - destruct (c =? SEMI); [apply suffix_cons, suffix_refl|]. destruct ((c =? 39) || (c =? 34)); [|apply suffix_cons, suffix_refl].
    pose proof (skip_string_suffix c r false (Some c)) as Hs. destruct (skip_string c false (Some c) r) as [p1 s1]. cbn in Hs. destruct s1; [exact I|]. now apply suffix_cons.
Qed.
Lemma scan_suffix f : forall ic lv p s rest, scan f ic lv p s = Some rest -> suffix rest s.
Proof.
  induction f as [|f IH]; intros ic lv p s rest H; [easy|]. cbn [scan] in H. pose proof (skip_suffix p s) as Hs. destruct (skip p s) as [p1 s1]. cbn in Hs.
  pose proof (at_suffix p1 s1) as Ha. destruct (at_position p1 s1) as [t [p2 s2]|[p2 s2]|]; [| |easy].
  - pose proof (suffix_trans _ _ _ Ha Hs) as Hx. destruct t; try (apply IH in H; eapply suffix_trans; eassumption).
    + destruct ic; [destruct (lv - 1 <? 0); [now injection H as <-|]|]; apply IH in H; eapply suffix_trans; eassumption.
    + destruct (lv =? 0); [now injection H as <-|]. apply IH in H; eapply suffix_trans; eassumption.
  - apply IH in H. eapply suffix_trans; [exact H|]. eapply suffix_trans; eassumption.
Qed.
Lemma firstn_suffix (buf rest : list Z) : suffix rest buf -> firstn (length buf - length rest) buf ++ rest = buf.
Proof. intros [u ->]. now rewrite firstn_before. Qed.
Lemma skip_nil p s : snd (skip p s) = [] -> blank s \/ exists a b, s = a ++ 45 :: 45 :: b /\ blank a /\ ~ In 10 b.
Proof.
  revert p. induction s as [|c s IH]; intros p H; [left; constructor|]. unfold skip in *. cbn [skip_spaces] in H. destruct (space c) eqn:E.
  - apply space_iff in E. destruct (IH (Some c) H) as [B|(a & b & -> & B1 & B2)]; [left; now constructor|]. right. exists (c :: a), b. split; [reflexivity|]. split; [now constructor|auto].
  - destruct s as [|d s]; [easy|]. destruct ((c =? 45) && (d =? 45)) eqn:E2; [|easy]. right. exists [], s. apply andb_prop in E2 as [E2 E3]. apply Z.eqb_eq in E2, E3. subst. split; [reflexivity|]. split; [constructor|].
    cbn [to_newline] in H. change (45 =? NL) with false in H. cbn iota in H. generalize dependent (Some 45). clear. induction s as [|x s IH]; intros o H; [easy|]. cbn [to_newline] in H. destruct (x =? NL) eqn:E; [easy|]. intros [->|Hin]; [discriminate|]. now apply (IH (Some x)).
Qed.
Lemma read_cases buf b rest : read_block buf = Some (b, rest) ->
  (b ++ rest = buf) \/ (b = [] /\ rest = [] /\ (blank buf \/ exists x y, buf = x ++ 45 :: 45 :: y /\ blank x /\ ~ In 10 y)).
Proof.
  unfold read_block. destruct buf as [|x buf]; [easy|]. remember (x :: buf) as B. pose proof (skip_suffix None B) as Hs. pose proof (skip_nil None B) as Hn. destruct (skip None B) as [p s]. cbn [snd] in *.
  destruct s as [|c s]; [intros H; injection H as <- <-; right; auto|]. destruct (c =? 35).
  - intros H. injection H as <- <-. left. apply firstn_suffix. exact (suffix_trans _ _ _ (to_newline_suffix (c :: s) p) Hs).
  - destruct (scan _ 0 0 p (c :: s)) as [r|] eqn:E; [|easy]. intros H. injection H as <- <-. left. apply firstn_suffix. apply scan_suffix in E. eapply suffix_trans; eassumption.
Qed.
(** more input changes nothing of a block that has been read *)
Definition ends (s : list Z) : Prop := s = [] \/ exists u, s = u ++ [10].
Lemma ends_tail c s : ends (c :: s) -> ends s.
Proof. intros [H|[u H]]; [easy|]. destruct u as [|d u]; [injection H as -> ->; now left|]. injection H as -> ->. right. now exists u. Qed.
Lemma ends_suffix a b : suffix a b -> ends b -> ends a.
Proof. intros [u ->]. induction u as [|c u IH]; [auto|]. intros H. apply IH. now apply ends_tail in H. Qed.
Lemma skip_spaces_more m s : forall p p1 s1, skip_spaces p s = (p1, s1) -> s1 <> [] -> skip_spaces p (s ++ m) = (p1, s1 ++ m).
Proof.
  induction s as [|c s IH]; intros p p1 s1 H Hn; cbn [skip_spaces app] in *; [now injection H as <- <-|].
  destruct (space c); [now apply IH|]. now injection H as <- <-.
Qed.
Lemma to_newline_more m s : forall p p1 s1, to_newline p s = (p1, s1) -> s1 <> [] -> to_newline p (s ++ m) = (p1, s1 ++ m).
Proof.
  induction s as [|c s IH]; intros p p1 s1 H Hn; cbn [to_newline app] in *; [now injection H as <- <-|].
  destruct (c =? NL); [|now apply IH]. now injection H as <- <-.
Qed.
Lemma skip_spaces_first s : forall p, match snd (skip_spaces p s) with [] => True | c :: _ => space c = false end.
Proof. induction s as [|c s IH]; intros p; cbn [skip_spaces]; [exact I|]. destruct (space c) eqn:E; [apply IH|exact E]. Qed.
Lemma skip_more m p s p1 s1 : ends s -> skip p s = (p1, s1) -> s1 <> [] -> skip p (s ++ m) = (p1, s1 ++ m).
Proof.
  intros He H Hn. unfold skip in *. pose proof (skip_spaces_first s p) as Hf. pose proof (skip_spaces_suffix s p) as Hs. pose proof (skip_spaces_more m s p) as Hm.
  destruct (skip_spaces p s) as [q t]. cbn [snd] in *. specialize (Hm q t eq_refl). destruct t as [|a [|b r]].
  - injection H as <- <-. easy.
  - exfalso. destruct (ends_suffix _ _ Hs He) as [E|[u E]]; [easy|]. destruct u as [|x [|y u]]; [injection E as ->|injection E as _ E|injection E as _ E]; easy.
  - rewrite Hm by discriminate. cbn [app]. destruct ((a =? 45) && (b =? 45)); [|now injection H as <- <-].
    exact (to_newline_more m (a :: b :: r) q p1 s1 H Hn).
Qed.
Lemma skip_string_more m q s : forall b p p1 s1, skip_string q b p s = (p1, s1) -> s1 <> [] -> skip_string q b p (s ++ m) = (p1, s1 ++ m).
Proof.
  induction s as [|c s IH]; intros b p p1 s1 H Hn; cbn [skip_string app] in *; [now injection H as <- <-|].
  destruct (c =? q); [destruct b; [now apply IH|now injection H as <- <-]|]. now apply IH.
Qed.
Lemma match_more m w p s q t : match_word w p s = Some (q, t) -> match_word w p (s ++ m) = Some (q, t ++ m).
Proof.
  unfold match_word. destruct (match p with None => true | Some b => (b =? SEMI) || space b end); [|easy].
  destruct (length s <? length w + 1)%nat eqn:E; [easy|]. apply Nat.ltb_ge in E.
  assert (length (s ++ m) <? length w + 1 = false)%nat as -> by (apply Nat.ltb_ge; rewrite app_length; lia).
  rewrite firstn_app, skipn_app. replace (length w - length s)%nat with 0%nat by lia. cbn [firstn skipn]. rewrite app_nil_r.
  destruct (is_case (firstn (length w) s) w); [|easy]. destruct (skipn (length w) s) as [|c r]; [easy|]. cbn [app]. destruct (space c || (c =? SEMI)); [|easy]. intros H. now injection H as <- <-.
Qed.
Lemma match_none m w p s : word_letters w -> s <> [] -> ends s -> match_word w p s = None -> match_word w p (s ++ m) = None.
Proof.
  intros [Hw1 Hw2] Hs He. unfold match_word. destruct (match p with None => true | Some b => (b =? SEMI) || space b end); [|easy].
  destruct (length s <? length w + 1)%nat eqn:E.
  - intros _. apply Nat.ltb_lt in E. destruct (_ <? _)%nat; [reflexivity|]. destruct (is_case (firstn (length w) (s ++ m)) w) eqn:Ec; [|reflexivity]. exfalso.
    apply is_case_spec in Ec. rewrite (lower_id _ Hw2) in Ec. destruct He as [He|[u ->]]; [easy|].
    assert (Hin : In 10 (firstn (length w) ((u ++ [10]) ++ m))) by (rewrite firstn_app; apply in_or_app; left; rewrite firstn_all2 by lia; apply in_or_app; right; now left).
    apply (in_map lower) in Hin. rewrite Ec in Hin. apply (proj1 (Forall_forall _ _) Hw2) in Hin. cbn in Hin. lia.
  - apply Nat.ltb_ge in E. assert (length (s ++ m) <? length w + 1 = false)%nat as -> by (apply Nat.ltb_ge; rewrite app_length; lia).
    rewrite firstn_app, skipn_app. replace (length w - length s)%nat with 0%nat by lia. cbn [firstn skipn]. rewrite app_nil_r.
    destruct (is_case (firstn (length w) s) w); [|easy]. destruct (skipn (length w) s) as [|c r] eqn:Es; [|cbn [app]; destruct (space c || (c =? SEMI)); easy].
    assert (L : length (skipn (length w) s) = 0%nat) by now rewrite Es. rewrite skipn_length in L. lia.
Qed.
Definition more (m : list Z) (a : found) : found := match a with Token t (p, s) => Token t (p, s ++ m) | Skip (p, s) => Skip (p, s ++ m) | Eof => Eof end.
Lemma at_more m p s : ends s -> at_position p s <> Eof -> at_position p (s ++ m) = more m (at_position p s).
Proof.
  intros He. unfold at_position. destruct s as [|c r]; [easy|]. cbn [app]. rewrite app_comm_cons.
  repeat match goal with
  | |- context [match match_word (text ?w) ?p (c :: r) with _ => _ end] =>
      let E := fresh in destruct (match_word (text w) p (c :: r)) as [[? ?]|] eqn:E;
      [pose proof (match_suffix _ _ _ _ _ E); rewrite (match_more m _ _ _ _ _ E); try reflexivity
      |rewrite (match_none m (text w) p (c :: r) ltac:(kw) ltac:(discriminate) He E); clear E]
  end.
  - pose proof (ends_suffix _ _ H0 He) as He2. pose proof (skip_suffix o l) as Hs. pose proof (skip_more m o l) as Hm. destruct (skip o l) as [p1 s1]. cbn in Hs. specialize (Hm _ _ He2 eq_refl).
    destruct s1 as [|d s1]; [easy|]. rewrite Hm by discriminate. cbn [app]. pose proof (ends_suffix _ _ Hs He2) as He3. destruct (d =? SEMI); [reflexivity|]. rewrite app_comm_cons.
    destruct (match_word (text "exists") p1 (d :: s1)) as [[? ?]|] eqn:E1; [now rewrite (match_more m _ _ _ _ _ E1)|].
    rewrite (match_none m (text "exists") p1 (d :: s1) ltac:(kw) ltac:(discriminate) He3 E1).
    destruct (match_word (text "not") p1 (d :: s1)) as [[? ?]|] eqn:E2; [now rewrite (match_more m _ _ _ _ _ E2)|].
    now rewrite (match_none m (text "not") p1 (d :: s1) ltac:(kw) ltac:(discriminate) He3 E2).
  - destruct (c =? SEMI); [reflexivity|]. destruct ((c =? 39) || (c =? 34)); [|reflexivity].
    pose proof (skip_string_more m c r false (Some c)) as Hs. destruct (skip_string c false (Some c) r) as [p1 s1]. specialize (Hs p1 s1 eq_refl). destruct s1 as [|d s1]; [easy|]. now rewrite Hs.
Qed.
Lemma scan_more m f : forall f' ic lv p s rest, ends s -> (length (s ++ m) < f')%nat -> scan f ic lv p s = Some rest -> scan f' ic lv p (s ++ m) = Some (rest ++ m).
Proof.
  induction f as [|f IH]; intros [|f'] ic lv p s rest He Hf H; try easy. cbn [scan] in *. rewrite app_length in Hf.
  pose proof (skip_suffix p s) as Hs. pose proof (skip_len p s) as Hl. pose proof (skip_more m p s) as Hm. destruct (skip p s) as [p1 s1]. cbn [snd] in *. specialize (Hm p1 s1 He eq_refl).
  destruct s1 as [|c s1]; [easy|]. rewrite Hm by discriminate. pose proof (ends_suffix _ _ Hs He) as He1.
  pose proof (at_suffix p1 (c :: s1)) as Ha. pose proof (at_len p1 (c :: s1)) as Hal. pose proof (at_more m p1 (c :: s1) He1) as Hx.
  destruct (at_position p1 (c :: s1)) as [t [p2 s2]|[p2 s2]|]; [| |easy]; rewrite Hx by discriminate; cbn [more]; pose proof (ends_suffix _ _ Ha He1) as He2; assert (G : (length (s2 ++ m) < f')%nat) by (rewrite app_length; lia).
  - destruct t; try (now apply IH).
    + destruct ic; [destruct (lv - 1 <? 0); [now injection H as <-|]|]; now apply IH.
    + destruct (lv =? 0); [now injection H as <-|]. now apply IH.
  - now apply IH.
Qed.
Lemma read_more m buf b rest : ends buf -> read_block buf = Some (b, rest) -> b <> [] -> read_block (buf ++ m) = Some (b, rest ++ m) /\ ends rest.
Proof.
  intros He H Hb. pose proof (read_cases buf b rest H) as Hc.
  assert (Er : ends rest) by (destruct Hc as [Hc|(Hc & _)]; [|easy]; apply (ends_suffix rest buf); [now exists b|exact He]). split; [|exact Er].
  unfold read_block in *. destruct buf as [|x buf]; [easy|]. cbn [app]. rewrite app_comm_cons. remember (x :: buf) as B.
  pose proof (skip_suffix None B) as Hs. pose proof (skip_more m None B) as Hm. destruct (skip None B) as [p s]. specialize (Hm p s He eq_refl). cbn [snd] in Hs.
  destruct s as [|c s]; [now injection H as <- _|]. rewrite Hm by discriminate. pose proof (ends_suffix _ _ Hs He) as He1. cbn [app].
  assert (L : forall r, (length (B ++ m) - length (r ++ m) = length B - length r)%nat) by (intros r; rewrite !app_length; lia).
  assert (F : forall r, suffix r B -> firstn (length (B ++ m) - length (r ++ m)) (B ++ m) = firstn (length B - length r) B).
  { intros r [u Hu]. rewrite L, firstn_app. replace (length B - length r - length B)%nat with 0%nat by lia. cbn [firstn]. now rewrite app_nil_r. }
  destruct (c =? 35) eqn:E35.
  - assert (Hn : snd (to_newline p (c :: s)) <> []).
    { intros E. clear - E He1 E35. destruct He1 as [He1|[u He1]]; [easy|]. rewrite He1 in E. clear - E. revert p E. induction u as [|d u IH]; intros p E; [easy|]. cbn [app to_newline] in E. destruct (d =? NL); [easy|]. now apply (IH (Some d)). }
    remember (to_newline p (c :: s)) as tn eqn:Et. destruct tn as [q t]. symmetry in Et. cbn [snd] in *. injection H as H1 H2.
    rewrite (to_newline_more m (c :: s) p q t Et Hn : to_newline p (c :: s ++ m) = _). cbn [snd]. subst t. rewrite F; [now rewrite H1|]. exists (firstn (length B - length rest) B). rewrite H1. destruct Hc as [Hc|(Hc & _)]; [now rewrite Hc|easy].
  - destruct (scan (S (length (c :: s))) 0 0 p (c :: s)) as [r|] eqn:Esc; [|easy]. injection H as H1 H2. subst r.
    rewrite (scan_more m _ (S (length ((c :: s) ++ m))) 0 0 p (c :: s) rest He1 ltac:(lia) Esc : scan (S (length (c :: s ++ m))) 0 0 p (c :: s ++ m) = _). rewrite F; [now rewrite H1|]. exists b. destruct Hc as [Hc|(Hc & _)]; [now rewrite Hc|easy].
Qed.
Lemma scan_len f : forall ic lv p s rest, scan f ic lv p s = Some rest -> (length rest < length s)%nat.
Proof.
  induction f as [|f IH]; intros ic lv p s rest H; [easy|]. cbn [scan] in H. pose proof (skip_len p s) as Hs. destruct (skip p s) as [p1 s1]. cbn in Hs.
  pose proof (at_len p1 s1) as Ha. destruct (at_position p1 s1) as [t [p2 s2]|[p2 s2]|]; [| |easy].
  - destruct t; try (apply IH in H; lia).
    + destruct ic; [destruct (lv - 1 <? 0); [injection H as <-; lia|]|]; apply IH in H; lia.
    + destruct (lv =? 0); [injection H as <-; lia|]. apply IH in H; lia.
  - apply IH in H. lia.
Qed.
Lemma read_len buf b rest : read_block buf = Some (b, rest) -> (length rest < length buf)%nat.
Proof.
  unfold read_block. destruct buf as [|x buf]; [easy|]. remember (x :: buf) as B. pose proof (skip_len None B) as Hs. destruct (skip None B) as [p s]. cbn [snd] in Hs.
  destruct s as [|c s]; [intros H; injection H as <- <-; subst; cbn; lia|]. destruct (c =? 35) eqn:E.
  - intros H. injection H as _ <-. cbn [to_newline]. assert (c =? NL = false) as -> by (unfold NL; lia). pose proof (to_newline_len s (Some c)). cbn in Hs. lia.
  - destruct (scan _ 0 0 p (c :: s)) as [r|] eqn:Es; [|easy]. intros H. injection H as _ <-. apply scan_len in Es. lia.
Qed.
Lemma blank_app a b : blank (a ++ b) <-> blank a /\ blank b.
Proof. apply Forall_app. Qed.
Lemma read_blank buf rest : ends buf -> read_block buf = Some ([], rest) -> blank buf /\ rest = [].
Proof.
  intros He H. pose proof (read_len _ _ _ H) as L. destruct (read_cases _ _ _ H) as [<-|(_ & -> & [B|(x & y & -> & B & Hn)])].
  - cbn in L. lia.
  - auto.
  - exfalso. destruct He as [He|[u He]]; [now destruct x|]. assert (G : In 10 (45 :: 45 :: y)).
    { assert (E : last (x ++ 45 :: 45 :: y) 0 = 10) by (rewrite He; apply last_last). rewrite <- E. clear. induction x as [|a x IH].
      - generalize (45 : Z) at 1 3. intros a. revert a. generalize (45 :: y). intros l. induction l as [|c l IH]; intros a; [now left|]. right. apply (IH c).
      - destruct x; exact IH. }
    destruct G as [G|[G|G]]; [easy|easy|auto].
Qed.
Lemma first_char l : statement l -> lexemes_ok True l -> no_space l -> exists c r, spelled l = c :: r /\ space c = false.
Proof.
  intros H Hl Hn. pose proof (statement_semicolon l H) as Hs. destruct l as [|x k]; [easy|]. destruct Hl as (F & _ & _). rewrite spelled_cons.
  destruct x as [c|q b|b|w|c|]; [easy| | | | |].
  - eexists _, _. split; [reflexivity|]. destruct F. unfold space. lia.
  - eexists _, _. split; reflexivity.
  - destruct F as [F1 F2]. destruct w as [|d w]; [easy|]. inversion F2; subst. eexists _, _. split; [reflexivity|]. unfold word_byte, space in *. lia.
  - eexists _, _. split; [reflexivity|]. cbn in F. unfold space. lia.
  - eexists _, _. split; reflexivity.
Qed.
Lemma no_blanks_front s t : blank s -> no_blanks (s ++ t) = no_blanks t.
Proof. induction 1 as [|c s Hc Hs IH]; [reflexivity|]. cbn [app no_blanks]. apply space_iff in Hc. now rewrite Hc. Qed.
Lemma no_blanks_statement s l : blank s -> statement l -> lexemes_ok True l -> no_space l -> no_blanks (s ++ spelled l) = spelled l.
Proof. intros Hs H Hl Hn. rewrite no_blanks_front by auto. destruct (first_char l H Hl Hn) as (c & r & -> & E). cbn. now rewrite E. Qed.
Lemma typed_blank ls u v : blank u -> typed ls (u ++ v) -> typed ls v.
Proof.
  intros Hu H. remember (u ++ v) as x eqn:E. destruct H as [s Hs|s l ls t Hs H Hl Hn Ht].
  - subst. constructor. now apply blank_app in Hs.
  - apply app_eq_app in E as [w [[-> E]|[-> E]]].
    + destruct w as [|c w]; [cbn in E; rewrite E; apply (T_next []); auto; constructor|].
      subst v. rewrite app_assoc. apply blank_app in Hs as [_ Hs]. rewrite <- app_assoc. now constructor.
    + destruct w as [|c w]; [cbn in E; rewrite <- E; apply (T_next []); auto; constructor|].
      exfalso. apply blank_app in Hu as [_ Hu]. inversion Hu as [|? ? Hc]; subst. destruct (first_char l H Hl Hn) as (d & r & Ed & Hd). rewrite Ed in E. injection E as -> _. apply space_iff in Hc. congruence.
Qed.
Lemma blocks_typed m fuel : forall buf ls bs left, ends buf -> (length buf < fuel)%nat -> typed ls (buf ++ m) -> read_blocks fuel buf = (bs, left) ->
  exists ls1 ls2, ls = ls1 ++ ls2 /\ map no_blanks (filter nonempty bs) = map spelled ls1 /\ typed ls2 (left ++ m) /\ ends left /\ read_block left = None.
Proof.
  induction fuel as [|fuel IH]; intros buf ls bs left He Hf Ht H; [lia|]. cbn [read_blocks] in H.
  destruct (read_block buf) as [[b rest]|] eqn:E; [|injection H as <- <-; exists [], ls; auto].
  pose proof (read_len _ _ _ E) as L. destruct (read_blocks fuel rest) as [bs' left'] eqn:Er. injection H as <- <-.
  destruct b as [|c b].
  - apply read_blank in E as [B ->]; [|auto]. apply typed_blank in Ht; [|auto]. cbn [filter nonempty]. apply (IH [] ls); auto; [now left|cbn in *; lia].
  - destruct (read_more m buf (c :: b) rest He E ltac:(discriminate)) as [Em Hr].
    remember (buf ++ m) as x eqn:Ex. destruct Ht as [s Hs|s l ls t Hs Hst Hl Hn Ht].
    + exfalso. subst s. apply blank_app in Hs as [Hb _]. destruct buf as [|a buf]; [easy|]. unfold read_block in E.
      assert (G : forall p, snd (skip_spaces p (a :: buf)) = []).
      { clear - Hb. induction Hb as [|d s Hd Hs IH]; intros p; [reflexivity|]. cbn [skip_spaces]. apply space_iff in Hd. rewrite Hd. apply IH. }
      specialize (G None). unfold skip in E. destruct (skip_spaces None (a :: buf)) as [p s]. cbn in G. subst s. discriminate.
    + rewrite (blank_read s l t Hs Hst Hl) in Em. injection Em as E1 E2. subst t.
      destruct (IH rest ls bs' left' Hr ltac:(lia) Ht Er) as (ls1 & ls2 & -> & G1 & G2 & G3 & G4).
      exists (l :: ls1), ls2. split; [reflexivity|]. split; [|auto]. cbn [filter nonempty map]. rewrite G1, <- E1. f_equal. now apply no_blanks_statement.
Qed.
Lemma input_cons line lines : input (line :: lines) = (line ++ [10]) ++ input lines.
Proof. reflexivity. Qed.
Lemma input_app a b : input (a ++ b) = input a ++ input b.
Proof. unfold input. now rewrite map_app, concat_app. Qed.
Lemma write_ends buf line : ends (write buf line).
Proof. right. exists (buf ++ line). unfold write. now rewrite app_assoc. Qed.
Lemma console_typed m lines : forall buf ls e left, ends buf -> read_block buf = None -> typed ls (buf ++ input lines ++ m) -> console buf lines = (e, left) ->
  exists ls1 ls2, ls = ls1 ++ ls2 /\ map no_blanks e = map spelled ls1 /\ typed ls2 (left ++ m) /\ ends left /\ read_block left = None.
Proof.
  induction lines as [|line lines IH]; intros buf ls e left He Hb Ht H; cbn [console] in H.
  - injection H as <- <-. exists [], ls. auto.
  - destruct (read_blocks (S (length (write buf line))) (write buf line)) as [l buf'] eqn:Er. destruct (console buf' lines) as [k left'] eqn:Ec. injection H as <- <-.
    rewrite input_cons in Ht. assert (Ht' : typed ls (write buf line ++ input lines ++ m)) by (unfold write, NL; now rewrite <- !app_assoc in *).
    destruct (blocks_typed (input lines ++ m) _ (write buf line) ls l buf' (write_ends _ _) (Nat.lt_succ_diag_r _) Ht' Er) as (l1 & l2 & -> & G1 & G2 & G3 & G4).
    destruct (IH buf' l2 k left' G3 G4 G2 Ec) as (l3 & l4 & -> & K1 & K2 & K3 & K4).
    exists (l1 ++ l3), l4. rewrite app_assoc, !map_app, G1, K1. auto.
Qed.
Lemma typed_left ls left : typed ls left -> ends left -> read_block left = None -> ls = [] /\ left = [].
Proof.
  intros H He Hr. destruct H as [s Hs|s l ls t Hs Hst Hl Hn Ht].
  - split; [reflexivity|]. destruct s as [|a s]; [reflexivity|]. exfalso. unfold read_block in Hr.
    assert (G : forall p, snd (skip_spaces p (a :: s)) = []).
    { clear - Hs. induction Hs as [|d r Hd Hs IH]; intros p; [reflexivity|]. cbn [skip_spaces]. apply space_iff in Hd. rewrite Hd. apply IH. }
    specialize (G None). unfold skip in Hr. destruct (skip_spaces None (a :: s)) as [p t]. cbn in G. subst t. discriminate.
  - now rewrite (blank_read s l t Hs Hst Hl) in Hr.
Qed.
(** pieces *)
Lemma pieces_front s e t : blank s -> pieces e t -> pieces e (s ++ t).
Proof.
  intros Hs H. destruct H as [u Hu|u b e t Hu H].
  - constructor. apply blank_app. auto.
  - rewrite app_assoc. constructor; auto. apply blank_app. auto.
Qed.
Lemma pieces_app e s : pieces e s -> forall e' s', pieces e' s' -> pieces (e ++ e') (s ++ s').
Proof.
  induction 1 as [u Hu|u b e t Hu H IH]; intros e' s' H'; [now apply pieces_front|].
  rewrite <- !app_assoc. cbn [app]. constructor; auto.
Qed.
Lemma blocks_pieces fuel : forall buf bs left, ends buf -> read_blocks fuel buf = (bs, left) -> exists u, buf = u ++ left /\ pieces (filter nonempty bs) u /\ ends left.
Proof.
  induction fuel as [|fuel IH]; intros buf bs left He H; cbn [read_blocks] in H.
  - injection H as <- <-. exists []. split; [reflexivity|]. split; [repeat constructor|auto].
  - destruct (read_block buf) as [[b rest]|] eqn:E; [|injection H as <- <-; exists []; split; [reflexivity|]; split; [repeat constructor|auto]].
    destruct (read_blocks fuel rest) as [bs' left'] eqn:Er. injection H as <- <-. destruct b as [|c b].
    + apply read_blank in E as [B ->]; [|auto]. destruct (IH [] bs' left' (or_introl eq_refl) Er) as (u & E & G & G2).
      symmetry in E. apply app_eq_nil in E as [-> ->]. exists buf. split; [now rewrite app_nil_r|]. split; [|auto]. cbn [filter nonempty].
      rewrite <- (app_nil_r buf). now apply pieces_front.
    + destruct (read_cases _ _ _ E) as [Hc|[Hc _]]; [|easy]. destruct (IH rest bs' left') as (u & -> & G & G2); [apply (ends_suffix rest buf); [now exists (c :: b)|auto]|exact Er|].
      exists ((c :: b) ++ u). split; [now rewrite <- app_assoc|]. split; [|auto]. cbn [filter nonempty]. apply (P_next [] (c :: b) (filter nonempty bs') u); [constructor|auto].
Qed.
Lemma console_pieces lines : forall buf e left, console buf lines = (e, left) -> exists u, buf ++ input lines = u ++ left /\ pieces e u.
Proof.
  induction lines as [|line lines IH]; intros buf e left H; cbn [console] in H.
  - injection H as <- <-. exists []. split; [now rewrite app_nil_r|repeat constructor].
  - destruct (read_blocks (S (length (write buf line))) (write buf line)) as [l buf'] eqn:Er. destruct (console buf' lines) as [k left'] eqn:Ec. injection H as <- <-.
    destruct (blocks_pieces _ _ _ _ (write_ends buf line) Er) as (u & Eu & Gu & _). destruct (IH _ _ _ Ec) as (v & Ev & Gv).
    exists (u ++ v). split; [|now apply pieces_app]. rewrite input_cons. transitivity (write buf line ++ input lines); [unfold write, NL; now rewrite <- !app_assoc|]. rewrite Eu, <- !app_assoc. now rewrite Ev.
Qed.
