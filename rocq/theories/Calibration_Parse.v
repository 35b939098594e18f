(** The parser understands the texts of JSON documents. *)
From stdpp Require Import gmap strings.
From Coq Require Import Ascii QArith Qcanon.
From Verif Require Import Base Calibration_Model Calibration_Spec Calibration_Numbers.

Definition digits_chars : text := ["0"; "1"; "2"; "3"; "4"; "5"; "6"; "7"; "8"; "9"]%char.
Definition starts : text := ["034"; "["; "{"; "-"]%char ++ digits_chars.
(** After a value there is a blank, a comma or a closing bracket. *)
Definition stops (t : text) : Prop := match t with [] => True | c :: _ => c ∈ [" "; "010"; "013"; "009"; ","; "]"; "}"]%char end.
Ltac chars H := unfold starts, digits_chars in H; cbn [app] in H; repeat (apply elem_of_cons in H as [->|H]); [..|by apply elem_of_nil in H].

Lemma skip_blanks b t : blanks b -> skip (b ++ t) = skip t.
Proof. induction 1 as [|c b Hc Hb IH]; [done|]. cbn [app skip]. by rewrite Hc. Qed.
Lemma skip_start c t : c ∈ starts -> skip (c :: t) = c :: t.
Proof. intros H. chars H; reflexivity. Qed.
Lemma digit_in x : (0 <= x < 10)%Z -> digit_char x ∈ digits_chars /\ digit_of (digit_char x) = Some x.
Proof.
  intros H. assert (x = 0 \/ x = 1 \/ x = 2 \/ x = 3 \/ x = 4 \/ x = 5 \/ x = 6 \/ x = 7 \/ x = 8 \/ x = 9)%Z as K by lia.
  destruct K as [->|[->|[->|[->|[->|[->|[->|[->|[->| ->]]]]]]]]]; (split; [apply (bool_decide_eq_true_1 _); vm_compute; reflexivity|vm_compute; reflexivity]).
Qed.
Definition no_digit (t : text) : Prop := match t with [] => True | c :: _ => digit_of c = None end.
Lemma scan_digits_ok ds r : Forall (fun x => 0 <= x < 10)%Z ds -> no_digit r -> scan_digits ((digit_char <$> ds) ++ r) = (ds, r).
Proof.
  intros H Hr. induction H as [|x ds Hx H IH]; cbn [fmap list_fmap app].
  - destruct r as [|c r]; [done|]. cbn [scan_digits]. cbn in Hr. by rewrite Hr.
  - cbn [scan_digits]. destruct (digit_in x Hx) as [_ ->]. change (list_fmap _ _ digit_char ds) with (digit_char <$> ds). by rewrite IH.
Qed.
Lemma scan_string_ok s r : Forall (fun c => plain_char c = true) s -> scan_string (s ++ quote ++ r) = Some (s, r).
Proof.
  induction 1 as [|c s Hc Hs IH]; cbn [app]; [reflexivity|]. cbn [scan_string]. rewrite Hc. cbn [app] in IH. rewrite IH. rewrite decide_False; [done|].
  intros ->. discriminate.
Qed.
Lemma stops_cases r : stops r -> no_digit r /\ (forall A (f : text -> A) (g : A), match r with "."%char :: t => f t | _ => g end = g) /\
  (forall A (f : text -> A) (g : A), match r with "e"%char :: t => f t | _ => g end = g).
Proof.
  destruct r as [|c r]; [done|]. intros H. unfold stops in H. chars H; (split; [vm_compute; reflexivity|split; reflexivity]).
Qed.
Definition exp_part (e : option (bool * list Z)) : text :=
  match e with None => [] | Some (neg, es) => ["e"; if neg : bool then "-" else "+"]%char ++ (digit_char <$> es) end.
Lemma exp_part_cases e r : stops r -> no_digit (exp_part e ++ r) /\ (forall A (f : text -> A) (g : A), match exp_part e ++ r with "."%char :: t => f t | _ => g end = g).
Proof. intros H. destruct (stops_cases r H) as (H1 & H2 & H3). destruct e as [[neg es]|]; cbn [exp_part app]; [|done]. by destruct neg. Qed.
Lemma scan_exp neg int fs e r : match e with None => True | Some (_, es) => es <> [] /\ Forall (fun x => 0 <= x < 10)%Z es end -> stops r ->
  match exp_part e ++ r with
  | "e"%char :: t' =>
      let '(eneg, t') := match t' with "-"%char :: r => (true, r) | "+"%char :: r => (false, r) | _ => (false, t') end in
      let '(es, r) := scan_digits t' in
      if bool_decide (es = []) then None else Some (json_of (Decimal neg int fs (Some (eneg, es))), r)
  | _ => Some (json_of (Decimal neg int fs None), exp_part e ++ r)
  end = Some (json_of (Decimal neg int fs e), r).
Proof.
  intros He Hr. destruct (stops_cases r Hr) as (H1 & H2 & H3). destruct e as [[eneg es]|]; cbn [exp_part].
  - destruct He as [Hn He]. rewrite <- app_assoc. destruct eneg; cbn [app]; rewrite (scan_digits_ok es r He H1), bool_decide_eq_false_2 by done; reflexivity.
  - cbn [app]. apply (H3 (option (json * text))).
Qed.
Lemma scan_number_ok d r : proper d -> stops r -> scan_number (render d ++ r) = Some (json_of d, r).
Proof.
  destruct d as [neg int fs e]. intros (Hi & Hf & Hz & He) Hr. cbn [d_int d_frac d_exp d_neg] in *. unfold scan_number.
  assert (E : render (Decimal neg int fs e) ++ r = (if neg then ["-"%char] else []) ++ (digit_char <$> int) ++ (match fs with [] => [] | fs => "."%char :: (digit_char <$> fs) end) ++ exp_part e ++ r).
  { unfold render. cbn [d_int d_frac d_exp d_neg]. rewrite <- !app_assoc.
    destruct fs; reflexivity. }
  rewrite E. clear E. set (tail := (match fs with [] => [] | fs => "."%char :: (digit_char <$> fs) end) ++ exp_part e ++ r).
  assert (Hsign : (match (if neg then ["-"%char] else []) ++ (digit_char <$> int) ++ tail with "-"%char :: t' => (true, t') | _ => (false, (if neg then ["-"%char] else []) ++ (digit_char <$> int) ++ tail) end) = (neg, (digit_char <$> int) ++ tail)).
  { destruct neg; [reflexivity|]. cbn [app]. destruct int as [|x int]; [destruct Hz as [Hz|(? & ? & Hz & _)]; discriminate|]. apply Forall_cons in Hi as [Hx _]. destruct (digit_in x Hx) as [K _]. cbn [fmap list_fmap app].
    set (c := digit_char x) in *. clearbody c. chars K; reflexivity. }
  rewrite Hsign. destruct (exp_part_cases e r Hr) as [X1 X2].
  assert (Ht : no_digit tail). { unfold tail. destruct fs; [exact X1|reflexivity]. }
  rewrite (scan_digits_ok int tail Hi Ht). rewrite bool_decide_eq_false_2.
  2:{ intros [->|[K1 K2]]; [destruct Hz as [Hz|(? & ? & Hz & _)]; discriminate|]. destruct Hz as [->|(x & l & -> & Hx)]; [cbn in K1; lia|]. cbn in K2. congruence. }
  assert (Hfrac : (match tail with "."%char :: t' => let '(fs, r) := scan_digits t' in if bool_decide (fs = []) then None else Some (fs, r) | _ => Some ([], tail) end) = Some (fs, exp_part e ++ r)).
  { unfold tail. destruct fs as [|f fs]; [apply (X2 (option (list Z * text)))|]. cbn [app]. change (digit_char f :: list_fmap _ _ digit_char fs) with (digit_char <$> f :: fs).
    change (match scan_digits ((digit_char <$> f :: fs) ++ exp_part e ++ r) with (fs0, r0) => if bool_decide (fs0 = []) then None else Some (fs0, r0) end = Some (f :: fs, exp_part e ++ r)).
    rewrite (scan_digits_ok (f :: fs) _ Hf X1). reflexivity. }
  rewrite Hfrac. apply scan_exp; done.
Qed.

Lemma value_start j t : value_text j t -> exists c t', t = c :: t' /\ c ∈ starts.
Proof.
  assert (S : forall c, bool_decide (c ∈ starts) = true -> c ∈ starts) by (intros c; apply bool_decide_eq_true_1).
  destruct 1 as [s|d H|l t|l t]; [by eexists _, _; split; [reflexivity|apply S]| |by eexists _, _; split; [reflexivity|apply S]|by eexists _, _; split; [reflexivity|apply S]].
  destruct d as [neg int fs e]. destruct H as (Hi & _ & Hz & _). cbn [d_int] in *. unfold render. cbn [d_int d_neg]. destruct neg; [by eexists _, _; split; [reflexivity|apply S]|].
  destruct int as [|x int]; [destruct Hz as [Hz|(? & ? & Hz & _)]; discriminate|]. apply Forall_cons in Hi as [Hx _]. cbn [fmap list_fmap app].
  eexists _, _. split; [reflexivity|]. unfold starts. apply elem_of_app. right. by apply digit_in.
Qed.
Lemma number_start n d r : proper d -> parse_value (S n) (render d ++ r) = scan_number (render d ++ r).
Proof.
  intros H. assert (exists c t, render d = c :: t /\ c ∈ "-"%char :: digits_chars) as (c & t & -> & Hc).
  { destruct d as [neg int fs e]. destruct H as (Hi & _ & Hz & _). cbn [d_int] in *. unfold render. cbn [d_int d_neg]. destruct neg; [eexists _, _; split; [reflexivity|]; by left|].
    destruct int as [|x int]; [destruct Hz as [Hz|(? & ? & Hz & _)]; discriminate|]. apply Forall_cons in Hi as [Hx _]. cbn [fmap list_fmap app].
    eexists _, _. split; [reflexivity|]. right. by apply digit_in. }
  clear H. cbn [app]. generalize (t ++ r). intros u. unfold digits_chars in Hc.
  repeat (apply elem_of_cons in Hc as [->|Hc]); [..|by apply elem_of_nil in Hc]; (cbn [parse_value]; rewrite 3 bool_decide_eq_false_2 by (cbn; discriminate); reflexivity).
Qed.

Scheme value_ind' := Induction for value_text Sort Prop
  with items_ind' := Induction for items_text Sort Prop
  with members_ind' := Induction for members_text Sort Prop.
Combined Scheme texts_ind from value_ind', items_ind', members_ind'.

Lemma stops_blanks b c r : blanks b -> c ∈ [","; "]"; "}"]%char -> stops (b ++ c :: r).
Proof.
  intros H Hc. destruct b as [|x b]; cbn [app stops].
  - chars Hc; apply (bool_decide_eq_true_1 _); vm_compute; reflexivity.
  - apply Forall_cons in H as [H _]. unfold blank in H. apply bool_decide_eq_true_1 in H. change (x ∈ ([" "; "010"; "013"; "009"] ++ [","; "]"; "}"])%char). apply elem_of_app. by left.
Qed.
Lemma skip_value a j t r : blanks a -> value_text j t -> skip (a ++ t ++ r) = t ++ r.
Proof. intros Ha H. rewrite skip_blanks by done. destruct (value_start j t H) as (c & t' & -> & Hc). by apply skip_start. Qed.
Lemma value_length j t : value_text j t -> (1 <= length t)%nat.
Proof. intros H. destruct (value_start j t H) as (c & t' & -> & _). cbn. lia. Qed.

Lemma parse_ok :
  (forall j t, value_text j t -> forall n r, (2 * length t <= n)%nat -> stops r -> parse_value n (t ++ r) = Some (j, r)) /\
  (forall l t, items_text l t -> forall n r, (2 * length t + 1 <= n)%nat -> parse_items n (t ++ txt "]" ++ r) = Some (l, r)) /\
  (forall l t, members_text l t -> forall n r, (2 * length t + 1 <= n)%nat -> parse_members n (t ++ txt "}" ++ r) = Some (l, r)).
Proof.
  apply texts_ind.
  - intros s Hs n r Hn _. destruct n as [|n]; [rewrite app_length in Hn; cbn in Hn; lia|]. change ((quote ++ txt s ++ quote) ++ r) with ("034"%char :: (txt s ++ quote) ++ r). rewrite <- app_assoc. cbn [parse_value].
    rewrite (scan_string_ok _ r Hs). unfold txt. by rewrite string_of_list_ascii_of_string.
  - intros d Hd n r Hn Hr. destruct n as [|n]; [pose proof (value_length _ _ (vt_number d Hd)); lia|]. rewrite number_start by done. by apply scan_number_ok.
  - intros l t Hl IH n r Hn _. rewrite !app_length in Hn. cbn [length] in Hn. destruct n as [|n]; [cbn in Hn; lia|]. change ((txt "[" ++ t ++ txt "]") ++ r) with ("["%char :: (t ++ txt "]") ++ r). rewrite <- app_assoc. cbn [parse_value].
    rewrite IH by (cbn in Hn; lia).
    assert (exists c u, skip (t ++ txt "]" ++ r) = c :: u /\ c ∈ starts) as (c & u & -> & Hc).
    { destruct Hl as [a j t b Ha Hv Hb|a j t b l t' Ha Hv Hb Hl]; rewrite <- !app_assoc, (skip_value a j t) by done; destruct (value_start j t Hv) as (c & t0 & -> & Hc); cbn [app]; eauto. }
    chars Hc; reflexivity.
  - intros l t Hl IH n r Hn _. rewrite !app_length in Hn. cbn [length] in Hn. destruct n as [|n]; [cbn in Hn; lia|]. change ((txt "{" ++ t ++ txt "}") ++ r) with ("{"%char :: (t ++ txt "}") ++ r). rewrite <- app_assoc. cbn [parse_value].
    rewrite IH by (cbn in Hn; lia).
    assert (exists u, skip (t ++ txt "}" ++ r) = "034"%char :: u) as (u & ->).
    { destruct Hl as [a k b c j t d Ha|a k b c j t d l t' Ha]; rewrite <- !app_assoc, (skip_blanks a) by done; eexists; reflexivity. }
    reflexivity.
  - intros a j t b Ha Hv IH Hb n r Hn. rewrite !app_length in Hn. destruct n as [|n]; [lia|]. rewrite <- !app_assoc. cbn [parse_items]. rewrite (skip_value a j t) by done.
    rewrite IH; [|lia|apply (stops_blanks b "]"%char r); [done|by right; left]]. rewrite skip_blanks by done. reflexivity.
  - intros a j t b l t' Ha Hv IH Hb Hl IHl n r Hn. rewrite !app_length in Hn. cbn [length txt list_ascii_of_string] in Hn. destruct n as [|n]; [lia|]. pose proof (value_length j t Hv). rewrite <- !app_assoc. cbn [parse_items]. rewrite (skip_value a j t) by done.
    rewrite IH; [|lia|apply (stops_blanks b ","%char (t' ++ txt "]" ++ r)); [done|by left]]. rewrite skip_blanks by done. change (skip (txt "," ++ t' ++ txt "]" ++ r)) with (","%char :: t' ++ txt "]" ++ r). cbv iota beta. rewrite IHl by (cbn in Hn; lia). reflexivity.
  - intros a k b c j t d Ha Hk Hb Hc Hv IH Hd n r Hn. rewrite !app_length in Hn. destruct n as [|n]; [lia|]. rewrite <- !app_assoc. cbn [parse_members]. rewrite skip_blanks by done.
    change (skip (quote ++ txt k ++ quote ++ b ++ txt ":" ++ c ++ t ++ d ++ txt "}" ++ r)) with ("034"%char :: txt k ++ quote ++ b ++ txt ":" ++ c ++ t ++ d ++ txt "}" ++ r). cbv iota beta.
    rewrite (scan_string_ok _ _ Hk), (skip_blanks b) by done. change (skip (txt ":" ++ c ++ t ++ d ++ txt "}" ++ r)) with (":"%char :: c ++ t ++ d ++ txt "}" ++ r). cbv iota beta.
    rewrite (skip_value c j t) by done. rewrite IH; [|lia|apply (stops_blanks d "}"%char r); [done|by right; right; left]]. rewrite skip_blanks by done. unfold txt at 2. rewrite string_of_list_ascii_of_string. reflexivity.
  - intros a k b c j t d l t' Ha Hk Hb Hc Hv IH Hd Hl IHl n r Hn. rewrite !app_length in Hn. cbn [length txt list_ascii_of_string] in Hn. destruct n as [|n]; [lia|]. pose proof (value_length j t Hv). rewrite <- !app_assoc. cbn [parse_members]. rewrite skip_blanks by done.
    change (skip (quote ++ txt k ++ quote ++ b ++ txt ":" ++ c ++ t ++ d ++ txt "," ++ t' ++ txt "}" ++ r)) with ("034"%char :: txt k ++ quote ++ b ++ txt ":" ++ c ++ t ++ d ++ txt "," ++ t' ++ txt "}" ++ r). cbv iota beta.
    rewrite (scan_string_ok _ _ Hk), (skip_blanks b) by done. change (skip (txt ":" ++ c ++ t ++ d ++ txt "," ++ t' ++ txt "}" ++ r)) with (":"%char :: c ++ t ++ d ++ txt "," ++ t' ++ txt "}" ++ r). cbv iota beta.
    rewrite (skip_value c j t) by done. rewrite IH; [|lia|apply (stops_blanks d ","%char (t' ++ txt "}" ++ r)); [done|by left]]. rewrite skip_blanks by done.
    change (skip (txt "," ++ t' ++ txt "}" ++ r)) with (","%char :: t' ++ txt "}" ++ r). cbv iota beta. rewrite IHl by (cbn in Hn; lia). unfold txt. rewrite string_of_list_ascii_of_string. reflexivity.
Qed.
Lemma json_parse_ok : parser_ok json_parse.
Proof.
  intros j t H. unfold json_parse. assert (E : skip t = t). { pose proof (skip_value [] j t [] ltac:(constructor) H) as K. cbn [app] in K. by rewrite app_nil_r in K. } rewrite E.
  destruct parse_ok as [P _]. specialize (P j t H (2 * length t + 2)%nat [] ltac:(lia) I). rewrite app_nil_r in P. rewrite P. reflexivity.
Qed.
