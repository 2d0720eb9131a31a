(* Lemmas for StepProps.v: parsing. *)
From Coq Require Import List Arith ZArith Bool QArith Qcanon Ascii Lia.
From Verif Require Import Common QcLib StepModel StepSpec.
Import ListNotations.
Local Open Scope Qc_scope.

Scheme denotes_mind := Induction for denotes Sort Prop with denotes_all_mind := Induction for denotes_all Sort Prop.

(* ---- characters ---- *)
Lemma eqb_neq c d : c <> d -> Ascii.eqb c d = false.
Proof. intros H. apply Ascii.eqb_neq. exact H. Qed.
Lemma special_tests c : ~ special c -> is_quote c = false /\ Ascii.eqb c "(" = false /\ Ascii.eqb c ")" = false /\ Ascii.eqb c "," = false.
Proof. unfold special, is_quote. intros H. rewrite !eqb_neq by (intros ->; tauto). auto. Qed.
Lemma white_space c : white c -> is_space c = true.
Proof. unfold white, is_space, code. cbn [In]. intros H. repeat (destruct H as [<-|H]; [reflexivity|]). destruct H. Qed.
Lemma blank_spaces t : blank t -> Forall (fun c => is_space c = true) t.
Proof. apply Forall_impl. exact white_space. Qed.
Lemma space_tests c : is_space c = true -> ~ special c /\ is_digit c = false /\ c <> "_"%char.
Proof. intros H. split; [intros [->|[->|[->|[->| ->]]]]; discriminate|]. split; [|intros ->; discriminate]. unfold is_space, is_digit in *. destruct (Nat.leb_spec 48 (code c)); [|reflexivity]. destruct (Nat.leb_spec (code c) 57); [|reflexivity]. cbn. exfalso. repeat rewrite orb_true_iff in H. repeat rewrite andb_true_iff in H. rewrite !Nat.leb_le, !Nat.eqb_eq in H. lia. Qed.
Lemma digit_char d : (d < 10)%nat -> is_digit (ascii_of_nat (48 + d)) = true /\ digit (ascii_of_nat (48 + d)) = Z.of_nat d.
Proof. intros H. unfold is_digit, digit, code. rewrite nat_ascii_embedding by lia. split; [|f_equal; lia]. apply andb_true_iff. rewrite !Nat.leb_le. lia. Qed.
Lemma digit_tests c : is_digit c = true -> ~ special c /\ is_space c = false /\ Ascii.eqb c "-" = false /\ Ascii.eqb c "+" = false /\ Ascii.eqb c "." = false.
Proof.
  intros H. assert (E : forall d, is_digit d = false -> Ascii.eqb c d = false) by (intros d D; apply eqb_neq; intros ->; congruence).
  split; [intros [->|[->|[->|[->| ->]]]]; discriminate|]. split; [destruct (is_space c) eqn:S; [|reflexivity]; apply space_tests in S; destruct S as [_ [S _]]; congruence|]. split; [|split]; apply E; reflexivity.
Qed.
(* ---- stripping ---- *)
Lemma drop_while_blank f a t : Forall (fun c => f c = true) a -> drop_while f (a ++ t) = drop_while f t.
Proof. induction 1 as [|c a E H IH]; [reflexivity|]. cbn. rewrite E. exact IH. Qed.
Lemma drop_while_stop f t : match t with [] => True | c :: _ => f c = false end -> drop_while f t = t.
Proof. destruct t as [|c t]; [reflexivity|]. cbn. intros ->. reflexivity. Qed.
(* no blank at either end *)
Definition solid (t : text) : Prop := t <> [] /\ (forall c, hd_error t = Some c -> is_space c = false) /\ (forall c, hd_error (rev t) = Some c -> is_space c = false).
Lemma strip_solid a t b : blank a -> solid t -> blank b -> strip (a ++ t ++ b) = t.
Proof.
  intros A [N [H1 H2]] B. unfold strip, drop_end. rewrite drop_while_blank by (apply blank_spaces, A). rewrite (drop_while_stop is_space (t ++ b)).
  - rewrite rev_app_distr. rewrite drop_while_blank by (apply Forall_rev, blank_spaces; exact B). rewrite drop_while_stop; [apply rev_involutive|]. destruct (rev t) as [|c r]; [exact I|]. apply H2. reflexivity.
  - destruct t as [|c t]; [congruence|]. apply H1. reflexivity.
Qed.
Lemma strip_blank a : blank a -> strip a = [].
Proof. intros A. unfold strip. rewrite <- (app_nil_r a), drop_while_blank by (apply blank_spaces, A). reflexivity. Qed.
Lemma solid_nosp t : t <> [] -> Forall (fun c => is_space c = false) t -> solid t.
Proof.
  intros N F. split; [exact N|]. split; intros c E.
  - destruct t; [discriminate|]. cbn in E. injection E as <-. inversion F; assumption.
  - apply Forall_rev in F. destruct (rev t); [discriminate|]. cbn in E. injection E as <-. inversion F; assumption.
Qed.
Lemma solid_ends q s : is_space q = false -> solid (q :: s ++ [q]).
Proof. intros Q. split; [discriminate|]. split; intros c E; [cbn in E; congruence|]. cbn [rev] in E. rewrite rev_app_distr in E. cbn in E. congruence. Qed.

(* ---- numbers ---- *)
Lemma decimal_digits n k t : decimal n k t -> Forall (fun c => is_digit c = true) t /\ length t = k /\ t <> [].
Proof. induction 1 as [d D|n k t d H [IH1 [IH2 IH3]] D]; [split; [constructor; [apply digit_char, D|constructor]|split; [reflexivity|discriminate]]|]. split; [apply Forall_app; split; [exact IH1|constructor; [apply digit_char, D|constructor]]|]. split; [rewrite app_length; cbn; lia|destruct t; discriminate]. Qed.
Lemma digits_all t : Forall (fun c => is_digit c = true) t -> forall acc n r, digits acc n (t ++ r) = digits (fold_left (fun a c => 10 * a + digit c)%Z t acc) (n + length t) r.
Proof. induction 1 as [|c t E H IH]; intros acc n r; [cbn; f_equal; lia|]. cbn [app digits fold_left length]. rewrite E, IH. f_equal. lia. Qed.
Lemma decimal_fold n k t : decimal n k t -> forall a, fold_left (fun a c => 10 * a + digit c)%Z t a = (a * 10 ^ Z.of_nat k + Z.of_nat n)%Z.
Proof.
  induction 1 as [d D|n k t d H IH D]; intros a; [cbn [fold_left]; rewrite (proj2 (digit_char d D)); cbn [Z.of_nat]; change (Z.of_nat 1) with 1%Z; lia|]. rewrite fold_left_app. cbn [fold_left]. rewrite (proj2 (digit_char d D)), IH, Nat2Z.inj_succ, Z.pow_succ_r by lia. lia.
Qed.
Lemma decimal_parse n k t : decimal n k t -> forall a m r, digits a m (t ++ r) = digits (a * 10 ^ Z.of_nat k + Z.of_nat n) (m + k) r.
Proof. intros H a m r. destruct (decimal_digits _ _ _ H) as [F [L _]]. rewrite digits_all by exact F. rewrite (decimal_fold _ _ _ H), L. reflexivity. Qed.
(* what may follow digits *)
Lemma digits_stop acc n t : match t with [] => True | c :: _ => is_digit c = false /\ c <> "_"%char end -> digits acc n t = (acc, n, t).
Proof. destruct t as [|c t]; [reflexivity|]. intros [A B]. cbn. rewrite A, (eqb_neq _ _ B). destruct t; reflexivity. Qed.
Lemma decimal_pos n k t : decimal n k t -> exists j, k = S j.
Proof. destruct 1; eauto. Qed.
Lemma decimal_sign n k t r : decimal n k t -> sign (t ++ r) = (false, t ++ r).
Proof. intros H. destruct (decimal_digits _ _ _ H) as [F [_ N]]. destruct t as [|c t]; [congruence|]. inversion F as [|? ? C]; subst. destruct (digit_tests c C) as [_ [_ [A [B _]]]]. cbn. rewrite A, B. reflexivity. Qed.
Lemma integer_parse z t : integer z t -> to_int t = Some z.
Proof.
  intros [n k u H|n k u H]; unfold to_int; destruct (decimal_pos _ _ _ H) as [j ->].
  - pose proof (decimal_sign _ _ _ [] H) as S. rewrite app_nil_r in S. rewrite S. pose proof (decimal_parse _ _ _ H 0 0 []) as D. rewrite app_nil_r in D. rewrite D. cbn [digits Nat.add]. f_equal; lia.
  - cbn [sign]. change (Ascii.eqb "-" "-") with true. cbn iota. pose proof (decimal_parse _ _ _ H 0 0 []) as D. rewrite app_nil_r in D. rewrite D. cbn [digits Nat.add]. f_equal; lia.
Qed.
Lemma exponent_head e v : exponent e v -> v = [] \/ exists t, v = "E"%char :: t /\ integer e t.
Proof. intros [|x t H]; [left; reflexivity|right; eauto]. Qed.
Lemma integer_body e t : integer e t -> (let '(s, r) := sign t in match digits 0 0 r with (z, S _, []) => Some (if s then - z else z)%Z | _ => None end) = Some e.
Proof. exact (integer_parse e t). Qed.
Lemma inject_pow k : Q2Qc (inject_Z (10 ^ Z.of_nat k)) <> 0.
Proof. intros H. apply Q2Qc_eq_iff in H. assert (P : (0 < 10 ^ Z.of_nat k)%Z) by (apply Z.pow_pos_nonneg; lia). unfold Qeq, inject_Z in H. cbn [Qnum Qden] in H. lia. Qed.
Lemma ten_to_add a b : ten_to (a + b) = ten_to a * ten_to b.
Proof.
  assert (P : forall x y, (0 <= x)%Z -> (0 <= y)%Z -> Q2Qc (inject_Z (10 ^ (x + y))) = Q2Qc (inject_Z (10 ^ x)) * Q2Qc (inject_Z (10 ^ y))). { intros x y X Y. rewrite Z.pow_add_r, inject_Z_mult by assumption. unfold Qcmult. apply Q2Qc_eq_iff. cbn [this Q2Qc]. rewrite !Qred_correct. reflexivity. }
  assert (N : forall x, (0 <= x)%Z -> Q2Qc (inject_Z (10 ^ x)) <> 0) by (intros x X; rewrite <- (Z2Nat.id x X); apply inject_pow).
  unfold ten_to. destruct (Z.leb_spec 0 a) as [A|A], (Z.leb_spec 0 b) as [B|B].
  - destruct (Z.leb_spec 0 (a + b)); [apply P; assumption|lia].
  - destruct (Z.leb_spec 0 (a + b)) as [C|C].
    + rewrite <- (Qcmult_1_r (Q2Qc (inject_Z (10 ^ (a + b))))), <- (Qcmult_inv_r _ (N (- b)%Z ltac:(lia))), Qcmult_assoc, <- P by lia. do 4 f_equal. lia.
    + assert (E : Q2Qc (inject_Z (10 ^ - b)) = Q2Qc (inject_Z (10 ^ - (a + b))) * Q2Qc (inject_Z (10 ^ a))) by (rewrite <- P by lia; do 3 f_equal; lia). rewrite E. field. split; apply N; lia.
  - destruct (Z.leb_spec 0 (a + b)) as [C|C].
    + assert (E : Q2Qc (inject_Z (10 ^ b)) = Q2Qc (inject_Z (10 ^ (a + b))) * Q2Qc (inject_Z (10 ^ - a))) by (rewrite <- P by lia; do 3 f_equal; lia). rewrite E. field. apply N; lia.
    + assert (E : Q2Qc (inject_Z (10 ^ - a)) = Q2Qc (inject_Z (10 ^ - (a + b))) * Q2Qc (inject_Z (10 ^ b))) by (rewrite <- P by lia; do 3 f_equal; lia). rewrite E. field. split; apply N; lia.
  - destruct (Z.leb_spec 0 (a + b)) as [C|C]; [lia|]. assert (E : Q2Qc (inject_Z (10 ^ - (a + b))) = Q2Qc (inject_Z (10 ^ - a)) * Q2Qc (inject_Z (10 ^ - b))) by (rewrite <- P by lia; do 3 f_equal; lia). rewrite E. field. split; apply N; lia.
Qed.
(* the unsigned part of a real *)
Lemma real_body n k t f u e v neg : decimal n k t -> fraction f u -> exponent e v ->
  let r := t ++ "."%char :: u ++ v in
  to_int ((if neg : bool then ["-"%char] else []) ++ r) = None /\ to_float ((if neg then ["-"%char] else []) ++ r) = Some (FNum ((if neg then - (1) else 1) * ((Q2Qc (inject_Z (Z.of_nat n)) + f) * ten_to e))).
Proof.
  intros D F E r. destruct (decimal_pos _ _ _ D) as [j ->].
  assert (S : sign ((if neg then ["-"%char] else []) ++ r) = (neg, r)) by (destruct neg; cbn [app]; [reflexivity|apply (decimal_sign _ _ _ _ D)]).
  assert (D1 : digits 0 0 r = (Z.of_nat n, Datatypes.S j, "."%char :: u ++ v)) by (unfold r; rewrite (decimal_parse _ _ _ D), digits_stop by (split; [reflexivity|discriminate]); f_equal; f_equal; lia).
  split; [unfold to_int; rewrite S, D1; reflexivity|]. unfold to_float. rewrite S.
  assert (H : exists c w, r = c :: w /\ is_digit c = true). { destruct (decimal_digits _ _ _ D) as [G [_ N]]. unfold r. destruct t as [|c t]; [congruence|]. inversion G; subst. exists c. eexists. split; [reflexivity|assumption]. } destruct H as [c [w [Er Hc]]].
  assert (T : forall l, match l with [] => True | d :: _ => is_digit d = false end -> l <> [] -> text_eqb (map lower r) l = false).
  { intros l L Nl. unfold text_eqb. destruct (list_eq_dec ascii_dec (map lower r) l) as [K|K]; [|reflexivity]. exfalso. rewrite Er in K. cbn [map] in K. assert (Lo : lower c = c). { unfold lower. destruct (is_upper c) eqn:U; [|reflexivity]. exfalso. unfold is_upper, is_digit in *. apply andb_true_iff in U, Hc. rewrite !Nat.leb_le in *. lia. } rewrite Lo in K. destruct l as [|d l]; [congruence|]. injection K as <- _. congruence. }
  rewrite !T by (try reflexivity; discriminate). cbn [orb]. rewrite D1. change (Ascii.eqb "." ".") with true. cbn iota.
  assert (V : match v with [] => True | c :: _ => is_digit c = false /\ c <> "_"%char end) by (destruct (exponent_head _ _ E) as [->|[x [-> _]]]; [exact I|split; [reflexivity|discriminate]]).
  assert (D2 : exists b n2, digits (Z.of_nat n) 0 (u ++ v) = (b, n2, v) /\ Q2Qc (inject_Z b) * ten_to (- Z.of_nat n2) = Q2Qc (inject_Z (Z.of_nat n)) + f).
  { destruct F as [|m k u F].
    - exists (Z.of_nat n), 0%nat. cbn [app]. rewrite digits_stop by exact V. split; [reflexivity|]. change (- Z.of_nat 0)%Z with 0%Z. assert (ten_to 0 = 1) as -> by (apply Qc_is_canon; reflexivity). ring.
    - exists (Z.of_nat n * 10 ^ Z.of_nat k + Z.of_nat m)%Z, k. rewrite (decimal_parse _ _ _ F), digits_stop by exact V. split; [reflexivity|]. destruct (decimal_pos _ _ _ F) as [i Ei]. unfold ten_to. destruct (Z.leb_spec 0 (- Z.of_nat k)); [lia|]. rewrite Z.opp_involutive. assert (Q2Qc (inject_Z (Z.of_nat n * 10 ^ Z.of_nat k + Z.of_nat m)) = Q2Qc (inject_Z (Z.of_nat n)) * Q2Qc (inject_Z (10 ^ Z.of_nat k)) + Q2Qc (inject_Z (Z.of_nat m))) as ->. { rewrite inject_Z_plus, inject_Z_mult. unfold Qcmult, Qcplus. apply Q2Qc_eq_iff. cbn [this Q2Qc]. rewrite !Qred_correct. reflexivity. } field. apply inject_pow. }
  destruct D2 as [b [n2 [D2 Dv]]]. rewrite D2. cbn [Nat.add Nat.eqb]. 
  assert (R : forall x, (if neg then - (1) else 1) * Q2Qc (inject_Z b) * ten_to (x - Z.of_nat n2) = (if neg then - (1) else 1) * ((Q2Qc (inject_Z (Z.of_nat n)) + f) * ten_to x)). { intros x. unfold Z.sub. rewrite ten_to_add, <- Dv. ring. }
  destruct (exponent_head _ _ E) as [->|[x [-> Ix]]].
  - rewrite R. assert (e = 0%Z) as -> by (inversion E; reflexivity). reflexivity.
  - change (Ascii.eqb (lower "E") "e") with true. cbn iota. pose proof (integer_body _ _ Ix) as B. destruct (sign x) as [s y]. destruct (digits 0 0 y) as [[z [|z2]] [|]]; try discriminate. injection B as B. rewrite B, R. reflexivity.
Qed.
Lemma real_parse x t : real x t -> to_int t = None /\ to_float t = Some (FNum x).
Proof.
  intros [n k u f v e w D F E|n k u f v e w D F E].
  - destruct (real_body _ _ _ _ _ _ _ false D F E) as [A B]. cbn [app] in *. split; [exact A|]. rewrite B. do 2 f_equal. ring.
  - destruct (real_body _ _ _ _ _ _ _ true D F E) as [A B]. cbn [app] in *. split; [exact A|]. rewrite B. replace (- (1) * ((Q2Qc (inject_Z (Z.of_nat n)) + f) * ten_to e)) with (- ((Q2Qc (inject_Z (Z.of_nat n)) + f) * ten_to e)) by ring. reflexivity.
Qed.

(* ---- tokens ---- *)
Lemma ends_not q t : match t with [] => True | c :: _ => c <> q end -> ends q t = false.
Proof. destruct t as [|c t]; [reflexivity|]. intros H. cbn [ends]. rewrite (eqb_neq _ _ H). reflexivity. Qed.
Lemma token_plain t : match t with [] => True | c :: _ => c <> "'"%char /\ c <> """"%char end -> process_token t = match to_int t with Some z => VInt z | None => match to_float t with Some f => VFloat f | None => VStr t end end.
Proof. intros H. unfold process_token. rewrite !ends_not by (destruct t; tauto). reflexivity. Qed.
Lemma token_quoted q s : q = "'"%char \/ q = """"%char -> process_token (q :: s ++ [q]) = VStr s.
Proof.
  intros Q. unfold process_token. assert (E : ends q (q :: s ++ [q]) = true). { cbn [ends]. rewrite Ascii.eqb_refl. change (q :: s ++ [q]) with ((q :: s) ++ [q]). rewrite last_last, Ascii.eqb_refl. reflexivity. }
  replace (ends "'" (q :: s ++ [q]) || ends """" (q :: s ++ [q])) with true by (destruct Q as [-> | ->]; rewrite E; [reflexivity|rewrite orb_true_r; reflexivity]). cbn [tl]. rewrite removelast_last. reflexivity.
Qed.
Lemma word_token t : word t -> process_token t = VStr t /\ solid t /\ Forall (fun c => ~ special c) t.
Proof.
  intros [F W]. destruct t as [|c t]; [destruct W|]. inversion F as [|? ? [C1 C2] F']; subst.
  assert (Q : c <> "'"%char /\ c <> """"%char) by (split; intros ->; apply C1; unfold special; tauto). split; [|split; [apply solid_nosp; [discriminate|eapply Forall_impl; [|exact F]; intros d D; apply D]|eapply Forall_impl; [|exact F]; intros d D; apply D]].
  rewrite token_plain by exact Q.
  assert (G : sign (c :: t) = (false, c :: t)) by (destruct W as [->|[->|[->|[-> _]]]]; reflexivity). unfold to_int, to_float. rewrite G.
  assert (Dg : is_digit c = false /\ c <> "_"%char) by (destruct W as [->|[->|[->|[-> _]]]]; split; try reflexivity; discriminate). rewrite (digits_stop 0 0 (c :: t)) by exact Dg.
  assert (L : forall l, match l with [] => False | d :: _ => d <> lower c end -> text_eqb (map lower (c :: t)) l = false). { intros l H. unfold text_eqb. destruct (list_eq_dec ascii_dec (map lower (c :: t)) l) as [K|K]; [|reflexivity]. exfalso. cbn [map] in K. destruct l; [exact H|]. injection K as K _. congruence. }
  rewrite !L by (destruct W as [->|[->|[->|[-> _]]]]; discriminate). cbn [orb].
  destruct W as [->|[->|[->|[-> W]]]]; try reflexivity. change (Ascii.eqb "." ".") with true. cbn iota. destruct t as [|d t]; [destruct W|]. rewrite digits_stop; [reflexivity|]. unfold is_upper in W. apply andb_true_iff in W. rewrite !Nat.leb_le in W. split; [unfold is_digit; apply andb_false_iff; right; apply Nat.leb_gt; lia|]. intros ->. destruct W as [_ W]. vm_compute in W. lia.
Qed.
Lemma decimal_chars n k t : decimal n k t -> Forall (fun c => ~ special c /\ is_space c = false) t.
Proof. intros H. destruct (decimal_digits _ _ _ H) as [F _]. eapply Forall_impl; [|exact F]. intros c C. apply digit_tests in C. tauto. Qed.
Lemma lit_char c : match c with "-" | "." | "E" => True | _ => False end%char -> ~ special c /\ is_space c = false.
Proof. intros H. split; [intros [->|[->|[->|[->| ->]]]]; exact H|]. destruct c as [[] [] [] [] [] [] [] []]; try destruct H; reflexivity. Qed.
Lemma integer_chars z t : integer z t -> t <> [] /\ Forall (fun c => ~ special c /\ is_space c = false) t.
Proof. intros [n k u H|n k u H]; (split; [destruct (decimal_digits _ _ _ H) as [_ [_ N]]; first [exact N|discriminate]|]); [|constructor; [apply lit_char; exact I|]]; exact (decimal_chars _ _ _ H). Qed.
Lemma real_chars x t : real x t -> t <> [] /\ Forall (fun c => ~ special c /\ is_space c = false) t.
Proof.
  assert (G : forall n k t f u e v, decimal n k t -> fraction f u -> exponent e v -> Forall (fun c => ~ special c /\ is_space c = false) (t ++ "."%char :: u ++ v)).
  { intros n k u f v e w D F E. apply Forall_app. split; [exact (decimal_chars _ _ _ D)|]. constructor; [apply lit_char; exact I|]. apply Forall_app. split; [destruct F as [|? ? ? F]; [constructor|exact (decimal_chars _ _ _ F)]|]. destruct E as [|? ? E]; [constructor|]. constructor; [apply lit_char; exact I|]. apply (integer_chars _ _ E). }
  intros [n k u f v e w D F E|n k u f v e w D F E]; (split; [first [discriminate|destruct u; discriminate]|]); [|constructor; [apply lit_char; exact I|]]; exact (G _ _ _ _ _ _ _ D F E).
Qed.
Lemma chars_first t : t <> [] -> Forall (fun c => ~ special c /\ is_space c = false) t -> match t with [] => True | c :: _ => c <> "'"%char /\ c <> """"%char end.
Proof. intros N F. destruct t as [|c t]; [congruence|]. inversion F as [|? ? [C _] _]; subst. split; intros ->; apply C; unfold special; tauto. Qed.
Lemma int_token z t : integer z t -> process_token t = VInt z.
Proof. intros H. destruct (integer_chars _ _ H) as [N F]. rewrite token_plain by exact (chars_first _ N F). rewrite (integer_parse _ _ H). reflexivity. Qed.
Lemma real_token x t : real x t -> process_token t = VFloat (FNum x).
Proof. intros H. destruct (real_chars _ _ H) as [N F]. rewrite token_plain by exact (chars_first _ N F). destruct (real_parse _ _ H) as [-> ->]. reflexivity. Qed.

(* ---- the parser ---- *)
(* characters read into the current token *)
Lemma read_plain t : Forall (fun c => ~ special c) t -> forall fuel r cur args, (length t <= fuel)%nat -> parse fuel (t ++ r) cur None args = parse (fuel - length t) r (cur ++ t) None args.
Proof.
  induction 1 as [|c t C F IH]; intros fuel r cur args L; [cbn [app length]; rewrite app_nil_r, Nat.sub_0_r; reflexivity|]. cbn [length] in *. destruct fuel as [|fuel]; [lia|]. cbn [app parse Nat.sub]. destruct (special_tests c C) as [-> [-> [_ ->]]]. rewrite IH by lia. rewrite <- app_assoc. reflexivity.
Qed.
Lemma read_quote q s : is_quote q = true -> ~ In q s -> forall fuel r cur args, (length s + 2 <= fuel)%nat -> parse fuel (q :: s ++ q :: r) cur None args = parse (fuel - (length s + 2)) r (cur ++ q :: s ++ [q]) None args.
Proof.
  intros Q N fuel r cur args L. destruct fuel as [|fuel]; [lia|]. cbn [parse]. rewrite Q. replace (S fuel - (length s + 2))%nat with (fuel - (length s + 1))%nat by lia. replace (cur ++ q :: s ++ [q]) with ((cur ++ [q]) ++ s ++ [q]) by (rewrite <- app_assoc; reflexivity). generalize (cur ++ [q]). clear cur. assert (L' : (length s + 1 <= fuel)%nat) by lia. clear L. revert fuel L'.
  induction s as [|c s IH]; intros fuel L cur.
  - destruct fuel as [|fuel]; [cbn in L; lia|]. cbn [app parse length Nat.add]. rewrite Ascii.eqb_refl. f_equal. lia.
  - cbn [length] in *. destruct fuel as [|fuel]; [lia|]. cbn [app parse]. rewrite (eqb_neq c q) by (intros ->; apply N; left; reflexivity). rewrite IH by (try lia; intros H; apply N; right; exact H). replace (S fuel - (S (length s) + 1))%nat with (fuel - (length s + 1))%nat by lia. rewrite <- app_assoc. reflexivity.
Qed.
Lemma close_skip t : Forall (fun c => ~ paren c) t -> forall n r, close n (t ++ r) = match close n r with Some (a, b) => Some (t ++ a, b) | None => None end.
Proof.
  induction 1 as [|c t C F IH]; intros n r; [cbn [app]; destruct (close n r) as [[a b]|]; reflexivity|]. cbn [app close]. unfold paren in C. rewrite !eqb_neq by (intros ->; tauto). rewrite IH. destruct (close n r) as [[a b]|]; reflexivity.
Qed.
(* text whose parentheses match *)
Definition even_parens (t : text) : Prop := forall n r, (0 < n)%nat -> close n (t ++ r) = match close n r with Some (a, b) => Some (t ++ a, b) | None => None end.
Lemma even_app t u : even_parens t -> even_parens u -> even_parens (t ++ u).
Proof. intros T U n r P. rewrite <- app_assoc, T, U by exact P. destruct (close n r) as [[a b]|]; [rewrite app_assoc|]; reflexivity. Qed.
Lemma even_plain t : Forall (fun c => ~ paren c) t -> even_parens t.
Proof. intros F n r _. apply close_skip, F. Qed.
Lemma even_wrap t : even_parens t -> even_parens ("("%char :: t ++ [")"%char]).
Proof.
  intros T n r P. cbn [app]. cbn [close]. change (Ascii.eqb "(" "(") with true. cbn iota. rewrite <- app_assoc, T by lia. cbn [app close]. change (Ascii.eqb ")" "(") with false. change (Ascii.eqb ")" ")") with true. cbn iota. destruct n as [|n]; [lia|]. destruct (close (S n) r) as [[a b]|]; [|reflexivity]. cbn [app]. rewrite <- app_assoc. reflexivity.
Qed.
Lemma blank_plain a : blank a -> Forall (fun c => ~ special c) a.
Proof. apply Forall_impl. intros c C. apply white_space, space_tests in C. tauto. Qed.
Lemma not_special_paren t : Forall (fun c => ~ special c) t -> Forall (fun c => ~ paren c) t.
Proof. apply Forall_impl. unfold special, paren. tauto. Qed.
Lemma chars_plain t : Forall (fun c => ~ special c /\ is_space c = false) t -> Forall (fun c => ~ special c) t.
Proof. apply Forall_impl. tauto. Qed.
Lemma even_deep : forall deep l t, denotes_all deep l t -> deep = true -> even_parens t.
Proof.
  apply (denotes_all_mind (fun deep v t _ => deep = true -> even_parens t) (fun deep l t _ => deep = true -> even_parens t)).
  - intros deep q s Q N H D. apply even_plain. constructor; [destruct Q as [-> | ->]; intros [K|K]; discriminate|]. apply Forall_app. split; [apply H, D|]. constructor; [destruct Q as [-> | ->]; intros [K|K]; discriminate|constructor].
  - intros deep t W _. apply even_plain, not_special_paren, (proj2 (proj2 (word_token t W))).
  - intros deep z t H _. apply even_plain, not_special_paren, chars_plain, (integer_chars z t H).
  - intros deep x t H _. apply even_plain, not_special_paren, chars_plain, (real_chars x t H).
  - intros deep l t _ IH _. apply even_wrap, IH. reflexivity.
  - intros deep t B _. apply even_plain, not_special_paren, blank_plain, B.
  - intros deep v a t b A _ IH B D. apply even_app; [apply even_plain, not_special_paren, blank_plain, A|]. apply even_app; [apply IH, D|apply even_plain, not_special_paren, blank_plain, B].
  - intros deep v l a t b r A _ IH B _ IH2 _ D. apply even_app; [apply even_plain, not_special_paren, blank_plain, A|]. apply even_app; [apply IH, D|]. apply even_app; [apply even_plain, not_special_paren, blank_plain, B|]. change (","%char :: r) with ([","%char] ++ r). apply even_app; [apply even_plain; constructor; [intros [K|K]; discriminate|constructor]|apply IH2, D].
Qed.
(* one argument leaves a current token that is the argument, or blank *)
Definition reads (v : val) (t : text) : Prop := forall fuel r cur args, blank cur -> (length t < fuel)%nat ->
  exists fuel' cur' args', (fuel - length t <= fuel')%nat /\ parse fuel (t ++ r) cur None args = parse fuel' r cur' None args' /\ (forall b, blank b -> push (cur' ++ b) args' = args ++ [v]) /\ (forall b, blank b -> (strip (cur' ++ b) = [] -> blank (cur' ++ b))).
Lemma push_token cur t b args : blank cur -> solid t -> blank b -> push ((cur ++ t) ++ b) args = args ++ [process_token t].
Proof. intros A S B. unfold push. rewrite <- app_assoc, strip_solid by assumption. destruct t as [|c t]; [destruct S as [S _]; congruence|reflexivity]. Qed.
Lemma strip_token cur t b : blank cur -> solid t -> blank b -> strip ((cur ++ t) ++ b) = [] -> blank ((cur ++ t) ++ b).
Proof. intros A S B. rewrite <- app_assoc, strip_solid by assumption. destruct S as [S _]. congruence. Qed.
Lemma read_token t v : Forall (fun c => ~ special c) t -> solid t -> process_token t = v -> reads v t.
Proof.
  intros F S P fuel r cur args B L. exists (fuel - length t)%nat, (cur ++ t), args. rewrite read_plain by (try exact F; lia). split; [lia|]. split; [reflexivity|]. split; [intros b Bb; rewrite push_token by assumption; rewrite P; reflexivity|intros b Bb; apply strip_token; assumption].
Qed.
Lemma parse_reads : forall deep l t, denotes_all deep l t -> forall fuel cur args, blank cur -> (length t < fuel)%nat -> parse fuel t cur None args = Ok (args ++ l).
Proof.
  apply (denotes_all_mind (fun deep v t _ => reads v t) (fun deep l t _ => forall fuel cur args, blank cur -> (length t < fuel)%nat -> parse fuel t cur None args = Ok (args ++ l))).
  - intros deep q s Q N _ fuel r cur args B L. exists (fuel - (length s + 2))%nat, (cur ++ q :: s ++ [q]), args. replace ((q :: s ++ [q]) ++ r) with (q :: s ++ q :: r) by (cbn [app]; rewrite <- app_assoc; reflexivity). cbn [length] in *. rewrite app_length in *. cbn [length] in *. rewrite read_quote by (try exact N; try lia; destruct Q as [-> | ->]; reflexivity). assert (S : solid (q :: s ++ [q])) by (apply solid_ends; destruct Q as [-> | ->]; reflexivity).
    split; [lia|]. split; [reflexivity|]. split; [intros b Bb; rewrite push_token by assumption; rewrite token_quoted by exact Q; reflexivity|intros b Bb; apply strip_token; assumption].
  - intros deep t W. destruct (word_token t W) as [A [B C]]. apply read_token; assumption.
  - intros deep z t H. destruct (integer_chars z t H) as [N F]. apply read_token; [apply chars_plain, F|apply solid_nosp; [exact N|eapply Forall_impl; [|exact F]; intros c C; apply C]|apply int_token, H].
  - intros deep x t H. destruct (real_chars x t H) as [N F]. apply read_token; [apply chars_plain, F|apply solid_nosp; [exact N|eapply Forall_impl; [|exact F]; intros c C; apply C]|apply real_token, H].
  - intros deep l t D IH fuel r cur args B L. cbn [length] in L. rewrite app_length in L. cbn [length] in L. destruct fuel as [|fuel]; [lia|]. exists fuel, cur, (args ++ [VTuple l]). split; [cbn [length]; lia|]. cbn [app parse]. change (is_quote "(") with false. change (Ascii.eqb "(" "(") with true. cbn iota.
    rewrite <- app_assoc, (even_deep _ _ _ D eq_refl) by lia. cbn [app close]. change (Ascii.eqb ")" "(") with false. change (Ascii.eqb ")" ")") with true. cbn iota. rewrite app_nil_r. rewrite IH by (try lia; constructor). cbn [bind app]. split; [reflexivity|].
    split; [intros b Bb; unfold push; rewrite strip_blank by (apply Forall_app; split; assumption); reflexivity|intros b Bb _; apply Forall_app; split; assumption].
  - intros deep t B fuel cur args C L. rewrite <- (app_nil_r t), read_plain by (try apply blank_plain, B; lia). destruct (fuel - length t)%nat eqn:E; [lia|]. cbn [parse]. unfold push. rewrite strip_blank by (apply Forall_app; split; assumption). rewrite app_nil_r. reflexivity.
  - intros deep v a t b A _ R B fuel cur args C L. rewrite !app_length in L. rewrite read_plain by (try apply blank_plain, A; lia). destruct (R (fuel - length a)%nat b (cur ++ a) args) as [f' [cur' [args' [F [E [P _]]]]]]; [apply Forall_app; split; assumption|lia|]. rewrite E. rewrite <- (app_nil_r b), read_plain by (try apply blank_plain, B; lia). destruct (f' - length b)%nat eqn:E2; [lia|]. cbn [parse]. rewrite P by exact B. reflexivity.
  - intros deep v l a t b r A _ R B _ IH _ fuel cur args C L. rewrite !app_length in L. cbn [length] in L. rewrite read_plain by (try apply blank_plain, A; lia). destruct (R (fuel - length a)%nat (b ++ ","%char :: r) (cur ++ a) args) as [f' [cur' [args' [F [E [P P2]]]]]]; [apply Forall_app; split; assumption|lia|]. rewrite E. rewrite read_plain by (try apply blank_plain, B; lia). destruct (f' - length b)%nat as [|f2] eqn:E2; [lia|]. cbn [parse]. change (is_quote ",") with false. change (Ascii.eqb "," "(") with false. change (Ascii.eqb "," ",") with true. cbn iota.
    rewrite P by exact B. specialize (P2 b B). rewrite IH; [rewrite <- app_assoc; reflexivity| |lia]. destruct (strip (cur' ++ b)); [apply P2; reflexivity|constructor].
Qed.
Lemma arguments_ok l t : denotes_all false l t -> parse_arguments t = Ok l.
Proof. intros H. unfold parse_arguments. rewrite (parse_reads _ _ _ H) by (try constructor; lia). reflexivity. Qed.
