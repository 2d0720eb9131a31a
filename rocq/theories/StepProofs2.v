(* Lemmas for StepProps.v: where the parser goes wrong, assignments, knots. *)
From Coq Require Import List Arith ZArith Bool QArith Qcanon Ascii Lia.
From Verif Require Import Common QcLib StepModel StepSpec StepProofs.
Import ListNotations.
Local Open Scope Qc_scope.

(* ---- the parser ends ---- *)
Lemma close_len : forall t n a b, close n t = Some (a, b) -> length t = S (length a + length b).
Proof.
  induction t as [|c t IH]; intros n a b H; [discriminate|]. cbn [close] in H. cbn [length]. destruct (Ascii.eqb c "(").
  - destruct (close (S n) t) as [[x y]|] eqn:E; [|discriminate]. injection H as <- <-. cbn [length]. rewrite (IH _ _ _ E). lia.
  - destruct (Ascii.eqb c ")").
    + assert (G : forall m, match close m t with Some (x, y) => Some (c :: x, y) | None => None end = Some (a, b) -> S (length t) = S (length a + length b)) by (intros m K; destruct (close m t) as [[x y]|] eqn:E; [|discriminate]; injection K as <- <-; cbn [length]; rewrite (IH _ _ _ E); lia).
      destruct n as [|[|n]]; [injection H as <- <-; reflexivity|injection H as <- <-; reflexivity|exact (G _ H)].
    + destruct (close n t) as [[x y]|] eqn:E; [|discriminate]. injection H as <- <-. cbn [length]. rewrite (IH _ _ _ E). lia.
Qed.
Lemma parse_total : forall fuel t cur q args, (length t < fuel)%nat -> (exists l, parse fuel t cur q args = Ok l) \/ parse fuel t cur q args = Err ValueError.
Proof.
  induction fuel as [|fuel IH]; intros t cur q args L; [lia|]. cbn [parse]. destruct t as [|c t]; [left; eexists; reflexivity|]. cbn [length] in L. destruct q as [qc|]; [apply IH; lia|]. destruct (is_quote c); [apply IH; lia|]. destruct (Ascii.eqb c "("); [|destruct (Ascii.eqb c ","); apply IH; lia].
  destruct (close 1 t) as [[inner rest]|] eqn:E; [|right; reflexivity]. pose proof (close_len _ _ _ _ E) as C. destruct (IH inner [] None []) as [[l K]|K]; [lia| |]; rewrite K; cbn [bind]; [apply IH; lia|right; reflexivity].
Qed.
Lemma arguments_total t : (exists l, parse_arguments t = Ok l) \/ parse_arguments t = Err ValueError.
Proof. apply parse_total. lia. Qed.
(* an opening parenthesis that is never closed *)
Lemma unclosed u v : Forall (fun c => ~ special c \/ c = ","%char) u -> Forall (fun c => c <> ")"%char) v -> parse_arguments (u ++ "("%char :: v) = Err ValueError.
Proof.
  intros U V. unfold parse_arguments. assert (N : forall n, close n v = None). { induction V as [|c v C V IH]; intros n; [reflexivity|]. cbn [close]. rewrite (eqb_neq c ")" C), !IH. destruct (Ascii.eqb c "("); reflexivity. }
  rewrite app_length. cbn [length]. replace (S (length u + S (length v)))%nat with (length u + S (S (length v)))%nat by lia. generalize (@nil ascii) as cur. generalize (@nil val) as args. induction U as [|c u C U IH]; intros args cur.
  - cbn [app length Nat.add parse]. change (is_quote "(") with false. change (Ascii.eqb "(" "(") with true. cbn iota. rewrite N. reflexivity.
  - cbn [app length Nat.add parse]. destruct C as [C| ->]; [destruct (special_tests c C) as [-> [-> [_ ->]]]; apply IH|]. change (is_quote ",") with false. change (Ascii.eqb "," "(") with false. change (Ascii.eqb "," ",") with true. cbn iota. apply IH.
Qed.
(* a closing parenthesis that was never opened is part of a token *)
Lemma stray t : Forall (fun c => ~ special c \/ c = ")"%char) t -> parse_arguments t = Ok (push t []).
Proof.
  intros F. unfold parse_arguments. cut (forall fuel cur args, (length t < fuel)%nat -> parse fuel t cur None args = Ok (push (cur ++ t) args)); [intros H; apply (H _ [] []); lia|]. induction F as [|c t C F IH]; intros fuel cur args L; (destruct fuel as [|fuel]; [cbn in L; lia|]); [cbn; rewrite app_nil_r; reflexivity|].
  cbn [length] in L. cbn [parse]. assert (is_quote c = false /\ Ascii.eqb c "(" = false /\ Ascii.eqb c "," = false) as [-> [-> ->]] by (destruct C as [C| ->]; [apply special_tests in C; tauto|auto]). rewrite IH by lia. rewrite <- app_assoc. reflexivity.
Qed.
Lemma strip_ne t : (exists c, In c t /\ is_space c = false) -> strip t <> [].
Proof.
  intros [c [I S]] H. assert (D : forall u, In c u -> In c (drop_while is_space u)). { induction u as [|d u IH]; [auto|]. intros [->|K]; cbn; [rewrite S; left; reflexivity|]. destruct (is_space d); [apply IH, K|right; exact K]. }
  assert (In c (strip t)) by (unfold strip, drop_end; apply -> in_rev; apply D; apply -> in_rev; apply D, I). rewrite H in H0. destruct H0.
Qed.
Lemma push_one t args : strip t <> [] -> push t args = args ++ [process_token (strip t)].
Proof. unfold push. destruct (strip t); [congruence|reflexivity]. Qed.
(* inside a quotation to the end of the text *)
Lemma open_quote q s : ~ In q s -> forall fuel cur args, (length s < fuel)%nat -> parse fuel s cur (Some q) args = Ok (push (cur ++ s) args).
Proof.
  induction s as [|c s IH]; intros N fuel cur args L; (destruct fuel as [|fuel]; [cbn in L; lia|]); cbn [parse]; [rewrite app_nil_r; reflexivity|]. rewrite (eqb_neq c q) by (intros ->; apply N; left; reflexivity). cbn [length] in L. rewrite IH by (try lia; intros K; apply N; right; exact K). rewrite <- app_assoc. reflexivity.
Qed.
Lemma parse_quote f c t cur args : is_quote c = true -> parse (S f) (c :: t) cur None args = parse f t (cur ++ [c]) (Some c) args.
Proof. intros H. cbn [parse]. rewrite H. reflexivity. Qed.
Lemma parse_open f t cur args : parse (S f) ("("%char :: t) cur None args = match close 1 t with None => Err ValueError | Some (inner, rest) => do l <- parse f inner [] None [] ; parse f rest cur None (args ++ [VTuple l]) end.
Proof. reflexivity. Qed.
Lemma parse_end f cur q args : parse (S f) [] cur q args = Ok (push cur args).
Proof. reflexivity. Qed.
Lemma nested_string w x : Forall (fun c => ~ special c) w -> Forall (fun c => ~ special c) x ->
  exists a b, parse_arguments (["("; "'"]%char ++ w ++ [")"%char] ++ x ++ ["'"; ")"]%char) = Ok [VTuple [a]; b].
Proof.
  intros W X. unfold parse_arguments. cbn [app length]. rewrite parse_open. cbn [close]. change (Ascii.eqb "'" "(") with false. change (Ascii.eqb "'" ")") with false. cbn iota.
  rewrite close_skip by (apply not_special_paren, W). cbn [close]. change (Ascii.eqb ")" "(") with false. change (Ascii.eqb ")" ")") with true. cbn iota. rewrite app_nil_r. rewrite !app_length. cbn [length]. rewrite app_length. cbn [length].
  assert (Nq : ~ In "'"%char w) by (intros K; rewrite Forall_forall in W; apply (W _ K); unfold special; tauto).
  rewrite parse_quote by reflexivity. rewrite open_quote by (try exact Nq; lia). cbn [app bind]. rewrite push_one by (apply strip_ne; exists "'"%char; split; [left; reflexivity|reflexivity]). cbn [app].
  set (p := process_token (strip ("'"%char :: w))). exists p.
  replace (S (S (length w + S (length x + 2)))) with (length x + S (length w + 4))%nat by lia. rewrite read_plain by (try exact X; lia). replace (length x + S (length w + 4) - length x)%nat with (S (length w + 4)) by lia. rewrite parse_quote by reflexivity. cbn [app]. rewrite open_quote by (try (intros [K|[]]; discriminate); cbn [length]; lia). rewrite push_one by (apply strip_ne; exists "'"%char; split; [apply in_or_app; left; apply in_or_app; right; left; reflexivity|reflexivity]). eexists. reflexivity.
Qed.
(* a typed parameter NAME(...) *)
Lemma typed name l t : Forall (fun c => ~ special c) name -> solid name -> denotes_all true l t -> parse_arguments (name ++ "("%char :: t ++ [")"%char]) = Ok [VTuple l; process_token name].
Proof.
  intros N S D. unfold parse_arguments. rewrite app_length. cbn [length]. rewrite app_length. cbn [length]. rewrite read_plain by (try exact N; lia). replace (Datatypes.S (length name + Datatypes.S (length t + 1)) - length name)%nat with (Datatypes.S (length t + 2)) by lia. cbn [app]. rewrite parse_open.
  rewrite (even_deep _ _ _ D eq_refl) by lia. cbn [close]. change (Ascii.eqb ")" "(") with false. change (Ascii.eqb ")" ")") with true. cbn iota. rewrite app_nil_r. rewrite (parse_reads _ _ _ D) by (try constructor; lia). cbn [bind app]. replace (length t + 2)%nat with (Datatypes.S (length t + 1)) by lia. rewrite parse_end. pose proof (push_token [] name [] [VTuple l]) as P. cbn [app] in P. rewrite app_nil_r in P. rewrite P by (exact S || constructor). reflexivity.
Qed.
(* a doubled quotation mark *)
Lemma doubled u v : ~ In "'"%char u -> ~ In "'"%char v -> parse_arguments ("'"%char :: u ++ "'"%char :: "'"%char :: v ++ ["'"%char]) = Ok [VStr (u ++ "'"%char :: "'"%char :: v)].
Proof.
  intros U V. unfold parse_arguments. cbn [length]. rewrite app_length. cbn [length]. rewrite app_length. cbn [length]. rewrite read_quote by (try reflexivity; try exact U; lia). cbn [app].
  replace (S (S (length u + S (S (length v + 1)))) - (length u + 2))%nat with (S (length v + 2)) by lia. rewrite read_quote by (try reflexivity; try exact V; lia). replace (S (length v + 2) - (length v + 2))%nat with 1%nat by lia. rewrite parse_end.
  assert (E : ("'"%char :: u ++ ["'"%char]) ++ "'"%char :: v ++ ["'"%char] = "'"%char :: (u ++ "'"%char :: "'"%char :: v) ++ ["'"%char]) by (cbn [app]; rewrite <- !app_assoc; reflexivity). rewrite E. pose proof (push_token [] ("'"%char :: (u ++ "'"%char :: "'"%char :: v) ++ ["'"%char]) [] []) as P. cbn [app] in P. rewrite app_nil_r in P. rewrite P by ((apply solid_ends; reflexivity) || constructor). pose proof (token_quoted "'"%char (u ++ "'"%char :: "'"%char :: v) (or_introl eq_refl)) as T. cbn [app] in T. rewrite T. reflexivity.
Qed.

(* ---- assignments ---- *)
Lemma drop_end_keep f u c p : f c = false -> exists p', drop_end f (u ++ c :: p) = u ++ c :: p' /\ incl p' p.
Proof.
  intros F. assert (D : forall w z, exists w', drop_while f (w ++ c :: z) = w' ++ c :: z /\ incl w' w). { induction w as [|d w IH]; intros z; [exists []; cbn; rewrite F; split; [reflexivity|apply incl_refl]|]. cbn [app drop_while]. destruct (f d); [destruct (IH z) as [w' [A B]]; exists w'; split; [exact A|intros x X; right; apply B, X]|exists (d :: w); split; [reflexivity|apply incl_refl]]. }
  unfold drop_end. rewrite rev_app_distr. cbn [rev]. rewrite <- app_assoc. cbn [app]. destruct (D (rev p) (rev u)) as [w' [A B]]. exists (rev w'). rewrite A, rev_app_distr. cbn [rev]. rewrite rev_involutive, <- app_assoc. split; [reflexivity|]. intros x X. apply in_rev. apply B. apply in_rev. exact X.
Qed.
Lemma take_while_all f a t : Forall (fun c => f c = true) a -> match t with [] => True | c :: _ => f c = false end -> take_while f (a ++ t) = a /\ drop_while f (a ++ t) = t.
Proof. induction 1 as [|c a E H IH]; intros T; [cbn [app]; destruct t as [|c t]; [auto|]; cbn; rewrite T; auto|]. cbn. rewrite E. destruct (IH T) as [-> ->]. auto. Qed.
(* the part before the name *)
Definition head_text (ds a b : text) : text := "#"%char :: ds ++ a ++ "="%char :: b.
Lemma match_head ds a b r : ds <> [] -> Forall (fun c => is_digit c = true) ds -> blank a -> blank b -> match r with [] => True | c :: _ => is_space c = false end ->
  match_assignment (head_text ds a b ++ r) = match take_while is_name r with [] => None | name => match expect "(" (drop_while is_space (drop_while is_name r)) with None => None | Some r => match up_to_last (line r) with Some x => Some (name, x) | None => None end end end.
Proof.
  intros N D A B R. unfold head_text, match_assignment. cbn [app expect]. change (Ascii.eqb "#" "#") with true. cbn iota. rewrite <- !app_assoc. cbn [app]. destruct (take_while_all is_digit ds (a ++ "="%char :: b ++ r) D) as [E1 E2]. { destruct a as [|c a]; [reflexivity|]. inversion A; subst. cbn [app]. apply space_tests, white_space. assumption. }
  rewrite E1, E2. destruct ds as [|d ds]; [congruence|]. rewrite drop_while_blank by (apply blank_spaces, A). cbn [drop_while]. change (is_space "=") with false. cbn iota. cbn [expect]. change (Ascii.eqb "=" "=") with true. cbn iota. rewrite drop_while_blank by (apply blank_spaces, B). rewrite (drop_while_stop is_space r) by exact R. reflexivity.
Qed.
Lemma name_char c : is_name c = true -> is_space c = false /\ c <> "("%char /\ is_digit c = false.
Proof.
  unfold is_name, is_upper, is_space, is_digit. intros H. apply orb_true_iff in H. destruct H as [H|H].
  - apply andb_true_iff in H. rewrite !Nat.leb_le in H. split; [|split; [intros ->; vm_compute in H; lia|apply andb_false_iff; right; apply Nat.leb_gt; lia]]. destruct (Nat.leb_spec 9 (code c)), (Nat.leb_spec (code c) 13), (Nat.leb_spec 28 (code c)), (Nat.leb_spec (code c) 32), (Nat.eqb_spec (code c) 133), (Nat.eqb_spec (code c) 160); cbn; try reflexivity; lia.
  - apply Ascii.eqb_eq in H. subst c. split; [reflexivity|]. split; [discriminate|reflexivity].
Qed.
Lemma strip_keep u c p : is_space c = false -> match u with [] => True | d :: _ => is_space d = false end -> exists p', drop_end (fun c => Ascii.eqb c ";") (strip (u ++ c :: p)) = u ++ c :: p' /\ incl p' p \/ c = ";"%char.
Proof.
  intros S U. destruct (ascii_dec c ";") as [->|N]; [exists []; right; reflexivity|]. unfold strip. rewrite (drop_while_stop is_space (u ++ c :: p)) by (destruct u as [|d u]; [exact S|exact U]). destruct (drop_end_keep is_space u c p S) as [p1 [E1 I1]]. rewrite E1. destruct (drop_end_keep (fun c => Ascii.eqb c ";") u c p1 (eqb_neq _ _ N)) as [p2 [E2 I2]]. exists p2. left. split; [exact E2|]. intros x X. apply I1, I2, X.
Qed.
Lemma strip_front a t : blank a -> strip (a ++ t) = strip t.
Proof. intros A. unfold strip. rewrite drop_while_blank by (apply blank_spaces, A). reflexivity. Qed.
Lemma assignment_ok pre ds a b name d args l post : blank pre -> ds <> [] -> Forall (fun c => is_digit c = true) ds -> blank a -> blank b -> name <> [] -> Forall (fun c => is_name c = true) name -> blank d ->
  denotes_all false l args -> ~ In "010"%char args -> ~ In ")"%char post ->
  parse_assignment (pre ++ head_text ds a b ++ name ++ d ++ "("%char :: args ++ ")"%char :: post) = Ok (name, l).
Proof.
  intros P N D A B Nn Na Dd L Nl Np. unfold parse_assignment. rewrite strip_front by exact P.
  replace (head_text ds a b ++ name ++ d ++ "("%char :: args ++ ")"%char :: post) with ((head_text ds a b ++ name ++ d ++ "("%char :: args) ++ ")"%char :: post) by (rewrite <- !app_assoc; cbn [app]; rewrite <- ?app_assoc; reflexivity).
  destruct (strip_keep (head_text ds a b ++ name ++ d ++ "("%char :: args) ")" post) as [p' [[E I]|E]]; [reflexivity|reflexivity| |discriminate]. rewrite E.
  replace ((head_text ds a b ++ name ++ d ++ "("%char :: args) ++ ")"%char :: p') with (head_text ds a b ++ name ++ d ++ "("%char :: args ++ ")"%char :: p') by (rewrite <- !app_assoc; cbn [app]; rewrite <- ?app_assoc; reflexivity).
  assert (Hn : match name ++ d ++ "("%char :: args ++ ")"%char :: p' with [] => True | c :: _ => is_space c = false end) by (destruct name as [|c name]; [congruence|]; inversion Na; subst; cbn [app]; apply name_char; assumption).
  rewrite match_head by assumption. destruct (take_while_all is_name name (d ++ "("%char :: args ++ ")"%char :: p') Na) as [T1 T2]. { destruct d as [|c d]; [reflexivity|]. inversion Dd as [|? ? Wc]; subst. apply white_space in Wc. cbn [app]. destruct (is_name c) eqn:Nc; [|reflexivity]. apply name_char in Nc. destruct Nc. congruence. }
  rewrite T1, T2. destruct name as [|c name]; [congruence|]. rewrite drop_while_blank by (apply blank_spaces, Dd). cbn [drop_while]. change (is_space "(") with false. cbn iota. cbn [expect]. change (Ascii.eqb "(" "(") with true. cbn iota.
  assert (Li : exists p2, line (args ++ ")"%char :: p') = args ++ ")"%char :: p2 /\ incl p2 p'). { unfold line. exists (take_while (fun c => negb (Ascii.eqb c "010")) p'). split; [|clear; induction p' as [|x p IH]; [apply incl_refl|]; cbn; destruct (negb (Ascii.eqb x "010")); [intros y [->|Y]; [left; reflexivity|right; apply IH, Y]|intros y []]]. clear - Nl. induction args as [|x args IH]; [reflexivity|]. cbn [app take_while]. rewrite (eqb_neq x) by (intros ->; apply Nl; left; reflexivity). cbn [negb]. f_equal. apply IH. intros K. apply Nl. right. exact K. }
  destruct Li as [p2 [E2 I2]]. rewrite E2.
  assert (U : up_to_last (args ++ ")"%char :: p2) = Some args). { unfold up_to_last, drop_end. rewrite rev_app_distr. cbn [rev]. rewrite <- app_assoc. rewrite drop_while_blank. - cbn [app drop_while]. change (negb (Ascii.eqb ")" ")")) with false. cbn iota. cbn [rev]. rewrite rev_involutive. destruct (args ++ [")"%char]) eqn:K; [destruct args; discriminate|]. rewrite <- K, removelast_last. reflexivity. - apply Forall_rev, Forall_forall. intros x X. apply negb_true_iff, eqb_neq. intros ->. apply Np, I, I2, X. }
  rewrite U. rewrite (arguments_ok _ _ L). reflexivity.
Qed.
(* entity names with a digit *)
Lemma digit_name ds a b n1 c r : ds <> [] -> Forall (fun c => is_digit c = true) ds -> blank a -> blank b -> Forall (fun c => is_name c = true) n1 -> is_digit c = true ->
  parse_assignment (head_text ds a b ++ n1 ++ c :: r) = Err ValueError.
Proof.
  intros N D A B Na C. unfold parse_assignment. destruct (digit_tests c C) as [_ [Sc _]]. replace (head_text ds a b ++ n1 ++ c :: r) with ((head_text ds a b ++ n1) ++ c :: r) by (rewrite <- app_assoc; reflexivity).
  destruct (strip_keep (head_text ds a b ++ n1) c r Sc) as [r' [[E _]|E]]; [reflexivity| |subst c; discriminate]. rewrite E, <- app_assoc.
  assert (Hn : match n1 ++ c :: r' with [] => True | x :: _ => is_space x = false end) by (destruct n1 as [|x n1]; [exact Sc|]; inversion Na; subst; cbn [app]; apply name_char; assumption).
  rewrite match_head by assumption. destruct (take_while_all is_name n1 (c :: r') Na) as [T1 T2]. { destruct (is_name c) eqn:K; [|reflexivity]. apply name_char in K. destruct K as [_ [_ K]]. congruence. }
  rewrite T1, T2. destruct n1 as [|x n1]; [reflexivity|]. cbn [drop_while]. rewrite Sc. cbn [expect]. assert (Ascii.eqb "(" c = false) as -> by (apply eqb_neq; intros <-; discriminate). reflexivity.
Qed.

(* ---- knot multiplicities ---- *)
Lemma eps8_pos : 0 < eps8.
Proof. apply qlt_true; vm_compute; reflexivity. Qed.
Lemma near_true a b : near a b = true <-> a - b < eps8 /\ b - a < eps8.
Proof. unfold near. pose proof eps8_pos as P. destruct (qlt (a - b) 0) eqn:E; [apply qlt_true in E|apply qlt_false in E]; (split; [intros H; apply qlt_true in H; split; qlra|intros [H1 H2]; apply qlt_true; qlra]). Qed.
Lemma near_false a b : near a b = false <-> eps8 <= a - b \/ eps8 <= b - a.
Proof.
  split.
  - intros H. destruct (qle eps8 (a - b)) eqn:A; [left; apply qle_true, A|]. destruct (qle eps8 (b - a)) eqn:B; [right; apply qle_true, B|]. apply qle_false in A, B. assert (near a b = true) by (apply near_true; auto). congruence.
  - intros H. destruct (near a b) eqn:N; [|reflexivity]. apply near_true in N. destruct N as [N1 N2]. destruct H as [H|H]; qlra.
Qed.
Lemma group_basic : forall l k n u m, (0 < n)%nat -> group k n l = (u, m) -> length u = length m /\ Forall (fun c => 0 < c)%nat m /\ list_sum m = (n + length l)%nat /\ hd_error u = Some k /\ incl u (k :: l).
Proof.
  induction l as [|x l IH]; intros k n u m N H; cbn [group] in H.
  - injection H as <- <-. split; [reflexivity|]. split; [constructor; [exact N|constructor]|]. split; [cbn; lia|]. split; [reflexivity|apply incl_refl].
  - destruct (near x k).
    + destruct (IH k (S n) u m ltac:(lia) H) as [A [B [C [D E]]]]. split; [exact A|]. split; [exact B|]. split; [rewrite C; cbn [length]; lia|]. split; [exact D|]. intros y Y. apply E in Y. destruct Y as [->|Y]; [left; reflexivity|right; right; exact Y].
    + destruct (group x 1 l) as [u' m'] eqn:G. injection H as <- <-. destruct (IH x 1%nat u' m' ltac:(lia) G) as [A [B [C [D E]]]]. split; [cbn; lia|]. split; [constructor; assumption|]. split; [cbn [list_sum fold_right length]; fold (list_sum m'); rewrite C; lia|]. split; [reflexivity|]. intros y [->|Y]; [left; reflexivity|right; apply E, Y].
Qed.
(* neighbouring values are at least the tolerance apart *)
Lemma group_apart : forall l k n u m, group k n l = (u, m) -> forall i, (S i < length u)%nat -> near (nth (S i) u 0) (nth i u 0) = false.
Proof.
  induction l as [|x l IH]; intros k n u m H i L; cbn [group] in H.
  - injection H as <- <-. cbn in L. lia.
  - destruct (near x k) eqn:E; [exact (IH _ _ _ _ H i L)|]. destruct (group x 1 l) as [u' m'] eqn:G. injection H as <- <-. destruct i as [|i]; [|exact (IH _ _ _ _ G i ltac:(cbn in L; lia))]. cbn [nth]. destruct (group_basic l x 1 u' m' ltac:(lia) G) as [_ [_ [_ [D _]]]]. destruct u' as [|y u']; [discriminate|]. cbn in D. injection D as ->. exact E.
Qed.
Lemma expand_cons k u n m : expand (k :: u) (n :: m) = repeat k n ++ expand u m.
Proof. reflexivity. Qed.
Lemma repeat_more {A} (k : A) n l : repeat k (S n) ++ l = repeat k n ++ k :: l.
Proof. induction n as [|n IH]; [reflexivity|]. cbn [repeat app]. f_equal. exact IH. Qed.
Lemma group_close : forall l k n u m, group k n l = (u, m) -> Forall2 (fun a b => a - b < eps8 /\ b - a < eps8) (repeat k n ++ l) (expand u m).
Proof.
  assert (R : forall k n, Forall2 (fun a b => a - b < eps8 /\ b - a < eps8) (repeat k n) (repeat k n)) by (intros k n; pose proof eps8_pos; induction n; cbn [repeat]; constructor; [split; qlra|assumption]).
  assert (G : forall l k n u m k', k' = k -> group k n l = (u, m) -> exists r, expand u m = repeat k n ++ r /\ Forall2 (fun a b => a - b < eps8 /\ b - a < eps8) l r).
  { induction l as [|x l IH]; intros k n u m k' E H; cbn [group] in H.
    - injection H as <- <-. exists []. split; [reflexivity|constructor].
    - destruct (near x k) eqn:N.
      + destruct (IH k (S n) u m k eq_refl H) as [r [A B]]. exists (k :: r). split; [rewrite A; apply repeat_more|]. constructor; [apply near_true, N|exact B].
      + destruct (group x 1 l) as [u' m'] eqn:G. injection H as <- <-. destruct (IH x 1%nat u' m' x eq_refl G) as [r [A B]]. exists (expand u' m'). split; [apply expand_cons|]. rewrite A. cbn [repeat app]. constructor; [pose proof eps8_pos; split; qlra|exact B]. }
  intros l k n u m H. destruct (G l k n u m k eq_refl H) as [r [-> B]]. apply Forall2_app; [apply R|exact B].
Qed.
Lemma group_exact : forall l k n u m, (forall x, In x l -> near x k = true -> x = k) -> (forall x y, In x l -> In y l -> near x y = true -> x = y) -> group k n l = (u, m) -> expand u m = repeat k n ++ l.
Proof.
  induction l as [|x l IH]; intros k n u m E1 E2 H; cbn [group] in H.
  - injection H as <- <-. reflexivity.
  - destruct (near x k) eqn:N.
    + rewrite (E1 x (or_introl eq_refl) N). rewrite (IH k (S n) u m); [apply repeat_more|intros y Y; apply E1; right; exact Y|intros y z Y Z; apply E2; right; assumption|exact H].
    + destruct (group x 1 l) as [u' m'] eqn:G. injection H as <- <-. rewrite expand_cons. f_equal. rewrite (IH x 1%nat u' m'); [reflexivity|intros y Y; apply E2; [right; exact Y|left; reflexivity]|intros y z Y Z; apply E2; right; assumption|exact G].
Qed.
Lemma multiplicities_basic l u m : get_knot_multiplicities l = (u, m) -> length u = length m /\ Forall (fun c => 0 < c)%nat m /\ list_sum m = length l /\ incl u l.
Proof.
  destruct l as [|x l]; cbn [get_knot_multiplicities]; intros H; [injection H as <- <-; split; [reflexivity|]; split; [constructor|]; split; [reflexivity|apply incl_refl]|]. destruct (group_basic l x 1 u m ltac:(lia) H) as [A [B [C [_ D]]]]. auto.
Qed.
Lemma multiplicities_close l u m : get_knot_multiplicities l = (u, m) -> Forall2 (fun a b => a - b < eps8 /\ b - a < eps8) l (expand u m).
Proof. destruct l as [|x l]; cbn [get_knot_multiplicities]; intros H; [injection H as <- <-; constructor|]. exact (group_close l x 1 u m H). Qed.
Lemma multiplicities_exact l u m : (forall x y, In x l -> In y l -> x - y < eps8 -> y - x < eps8 -> x = y) -> get_knot_multiplicities l = (u, m) -> expand u m = l.
Proof.
  destruct l as [|k l]; cbn [get_knot_multiplicities]; intros E H; [injection H as <- <-; reflexivity|]. apply (group_exact l k 1 u m); [| |exact H].
  - intros x X N. apply near_true in N. destruct N. apply E; try assumption; [right; exact X|left; reflexivity].
  - intros x y X Y N. apply near_true in N. destruct N. apply E; try assumption; right; assumption.
Qed.
Lemma multiplicities_apart l u m : get_knot_multiplicities l = (u, m) -> forall i, (S i < length u)%nat -> eps8 <= nth (S i) u 0 - nth i u 0 \/ eps8 <= nth i u 0 - nth (S i) u 0.
Proof. destruct l as [|x l]; cbn [get_knot_multiplicities]; intros H i L; [injection H as <- <-; cbn in L; lia|]. apply near_false. exact (group_apart l x 1 u m H i L). Qed.
(* for knots in order the values are in strict order *)
Lemma group_up : forall l k n u m, (forall i, (S i < length (k :: l))%nat -> nth i (k :: l) 0 <= nth (S i) (k :: l) 0) -> group k n l = (u, m) -> forall i, (S i < length u)%nat -> eps8 <= nth (S i) u 0 - nth i u 0.
Proof.
  induction l as [|x l IH]; intros k n u m S H i L; cbn [group] in H.
  - injection H as <- <-. cbn in L. lia.
  - assert (S' : forall i, (Datatypes.S i < length (x :: l))%nat -> nth i (x :: l) 0 <= nth (Datatypes.S i) (x :: l) 0) by (intros j J; apply (S (Datatypes.S j)); cbn [length] in *; lia). destruct (near x k) eqn:E.
    + apply (IH k (Datatypes.S n) u m); try assumption. intros [|j] J; [|apply (S' (Datatypes.S j)); cbn [length] in *; lia]. cbn [length] in J. pose proof (S 0%nat ltac:(cbn; lia)) as A. pose proof (S' 0%nat ltac:(cbn [length]; lia)) as B. cbn [nth] in *. qlra.
    + destruct (group x 1 l) as [u' m'] eqn:G. injection H as <- <-. destruct i as [|i]; [|exact (IH _ _ _ _ S' G i ltac:(cbn in L; lia))]. cbn [nth]. destruct (group_basic l x 1 u' m' ltac:(lia) G) as [_ [_ [_ [D _]]]]. destruct u' as [|y u']; [discriminate|]. cbn in D. injection D as ->. cbn [nth]. pose proof (S 0%nat ltac:(cbn; lia)) as A. cbn [nth] in A. apply near_false in E. pose proof eps8_pos. destruct E as [E|E]; [exact E|qlra].
Qed.
Lemma multiplicities_up l u m : (forall i, (S i < length l)%nat -> nth i l 0 <= nth (S i) l 0) -> get_knot_multiplicities l = (u, m) -> forall i, (S i < length u)%nat -> nth i u 0 < nth (S i) u 0.
Proof. destruct l as [|x l]; cbn [get_knot_multiplicities]; intros S H i L; [injection H as <- <-; cbn in L; lia|]. pose proof (group_up l x 1 u m S H i L). pose proof eps8_pos. qlra. Qed.
