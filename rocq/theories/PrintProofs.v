(** Printed text is read back: numbers, spelling, expressions. *)
From Coq Require Import ZArith List String Ascii Bool Arith Lia.
From Verif Require Import Base Expr Instr Ast Lexer Parser Printer SpecLex LexProofs LexProofs3 LexProofs4 LexProofs5
  SpecParse ParseProofs SpecLine LineProofs SpecPrint.
Import ListNotations.
Open Scope string_scope.
Open Scope list_scope.
Local Open Scope nat_scope.

(** * Digits *)

Section Digits.
Variable base : Z.
Hypothesis base_ok : (2 <= base <= 16)%Z.

Definition all_digits (vs : list Z) : Prop := Forall (fun v => (0 <= v < base)%Z) vs.
Definition text_of (vs : list Z) : string := string_of_list_ascii (map digit_char vs).

Lemma digit_char_ok v : (0 <= v < base)%Z -> digit base (digit_char v) v.
Proof.
  intros H. split; [|lia].
  assert (I: In v [0; 1; 2; 3; 4; 5; 6; 7; 8; 9; 10; 11; 12; 13; 14; 15]%Z).
  { cbn. lia. }
  cbn in I. repeat destruct I as [<-|I]; try (vm_compute; tauto).
Qed.

Lemma text_digits vs : all_digits vs -> more_digits base (text_of vs) vs.
Proof. induction 1 as [|v vs H F IH]; cbn; [constructor|]. apply md_digit; [now apply digit_char_ok|exact IH]. Qed.

Lemma text_some vs : all_digits vs -> vs <> [] -> some_digits base (text_of vs) vs.
Proof.
  intros F N. destruct vs as [|v vs]; [congruence|]. inversion F; subst. exists (digit_char v), v, (text_of vs), vs.
  split; [reflexivity|]. split; [reflexivity|]. split; [now apply digit_char_ok|now apply text_digits].
Qed.

Lemma text_app a b : text_of (a ++ b) = (text_of a ++ text_of b)%string.
Proof. unfold text_of. induction a as [|x a IH]; cbn; [reflexivity|]. now rewrite IH. Qed.

Lemma positional_app a b : positional base (a ++ b) = (positional base a * base ^ Z.of_nat (List.length b) + positional base b)%Z.
Proof.
  induction a as [|v a IH]; cbn [positional app]; [lia|]. rewrite IH, app_length, Nat2Z.inj_add, Z.pow_add_r by lia. ring.
Qed.

Lemma positional_zeros k vs : positional base (repeat 0%Z k ++ vs) = positional base vs.
Proof. induction k as [|k IH]; cbn [repeat app positional]; [reflexivity|]. rewrite IH. lia. Qed.

Lemma digits_spec : forall fuel n acc, (0 <= n < base ^ Z.of_nat fuel)%Z -> fuel <> 0 ->
  exists vs, digits fuel digit_char base n acc = (text_of vs ++ acc)%string /\ all_digits vs /\ vs <> [] /\ positional base vs = n.
Proof.
  induction fuel as [|f IH]; intros n acc H N; [congruence|]. cbn [digits].
  assert (M := Z.mod_pos_bound n base ltac:(lia)). assert (D := Z.div_mod n base ltac:(lia)).
  assert (Q: (0 <= n / base)%Z) by (apply Z.div_pos; lia).
  destruct (Z.eqb_spec (n / base) 0) as [E|E].
  - exists [n mod base]%Z. split; [reflexivity|]. split; [constructor; [lia|constructor]|]. split; [discriminate|]. cbn. nia.
  - destruct f as [|f].
    { exfalso. change (Z.of_nat 1) with 1%Z in H. rewrite Z.pow_1_r in H. apply E. apply Z.div_small. lia. }
    destruct (IH (n / base)%Z (String (digit_char (n mod base)) acc)) as (vs & E1 & E2 & E3 & E4).
    + split; [exact Q|]. apply Z.div_lt_upper_bound; [lia|]. rewrite Nat2Z.inj_succ, Z.pow_succ_r in H by lia. lia.
    + discriminate.
    + exists (vs ++ [n mod base]%Z). split; [|split; [|split]].
      * rewrite E1, text_app. cbn. now rewrite app_assoc_s.
      * apply Forall_app. split; [exact E2|]. constructor; [lia|constructor].
      * destruct vs; discriminate.
      * rewrite positional_app, E4. cbn [positional List.length]. change (Z.of_nat 1) with 1%Z. change (Z.of_nat 0) with 0%Z. rewrite Z.pow_1_r, Z.pow_0_r. nia.
Qed.

Lemma natural_spec n : (0 <= n < 2 ^ 64)%Z ->
  exists vs, natural digit_char base n = text_of vs /\ all_digits vs /\ vs <> [] /\ positional base vs = n.
Proof.
  intros H. destruct (digits_spec 64 n "") as (vs & E & R).
  - split; [lia|]. apply Z.lt_le_trans with (2 ^ 64)%Z; [lia|]. change (Z.of_nat 64) with 64%Z. apply Z.pow_le_mono_l. lia.
  - discriminate.
  - exists vs. rewrite app_nil_r_s in E. auto.
Qed.

Lemma zeros_text k : string_of_list_ascii (repeat "0"%char k) = text_of (repeat 0%Z k).
Proof. unfold text_of. f_equal. induction k as [|k IH]; cbn; [reflexivity|]. now rewrite <- IH. Qed.

Lemma padded_spec w n : (0 <= n < 2 ^ 64)%Z ->
  exists vs, pad_zeros w (natural digit_char base n) = text_of vs /\ all_digits vs /\ vs <> [] /\ positional base vs = n.
Proof.
  intros H. destruct (natural_spec n H) as (vs & E1 & E2 & E3 & E4). unfold pad_zeros. rewrite zeros_text.
  set (k := w - String.length (natural digit_char base n)). exists (repeat 0%Z k ++ vs). split; [|split; [|split]].
  - now rewrite text_app, E1.
  - apply Forall_app. split; [|exact E2]. apply Forall_forall. intros x I. apply repeat_spec in I. subst. lia.
  - destruct k; cbn; [exact E3|discriminate].
  - now rewrite positional_zeros.
Qed.
End Digits.

Lemma show_number_numeral n r : (0 <= n <= 2147483647)%Z -> r <> Octal -> numeral (show_number n r) n r.
Proof.
  intros H R. assert (M: (n mod 4294967296 = n)%Z) by (apply Z.mod_small; lia).
  destruct r; try congruence; cbn [show_number].
  - unfold show_dec. destruct (Z.ltb_spec n 0); [lia|]. destruct (natural_spec 10 ltac:(lia) n ltac:(lia)) as (vs & -> & A & N & P).
    exists "", 10%Z, (text_of vs), vs. split; [cbn; tauto|]. split; [reflexivity|]. split; [now apply text_some; [lia|..]|congruence].
  - assert (K: forall w, numeral ("$" ++ show_radix 16 w n) n Hex).
    { intros w. unfold show_radix. rewrite M. destruct (padded_spec 16 ltac:(lia) w n ltac:(lia)) as (vs & -> & A & N & P).
      exists "$", 16%Z, (text_of vs), vs. split; [cbn; tauto|]. split; [reflexivity|]. split; [now apply text_some; [lia|..]|congruence]. }
    destruct (n <=? 255)%Z; apply K.
  - unfold show_radix. rewrite M. destruct (padded_spec 2 ltac:(lia) 8 n ltac:(lia)) as (vs & -> & A & N & P).
    exists "%", 2%Z, (text_of vs), vs. split; [cbn; tauto|]. split; [reflexivity|]. split; [now apply text_some; [lia|..]|congruence].
Qed.

Lemma show_usize_numeral n : (0 <= n <= 2147483647)%Z -> numeral ("$" ++ show_usize_hex n) n Hex.
Proof.
  intros H. unfold show_usize_hex. destruct (padded_spec 16 ltac:(lia) 4 n ltac:(lia)) as (vs & -> & A & N & P).
  exists "$", 16%Z, (text_of vs), vs. split; [cbn; tauto|]. split; [reflexivity|]. split; [now apply text_some; [lia|..]|congruence].
Qed.

(** * Spelling *)

Definition LFs : string := String "010" "".

(** What may follow a name or a number. *)
Definition stopper (c : ascii) : Prop := In c [" "; ")"; ","; ":"; ";"; "010"]%char.
Definition stops (rest : string) : Prop := rest = "" \/ starts stopper rest.

Inductive spelled : string -> list token_type -> string -> Prop :=
| sp_nil : forall rest, spelled "" [] rest
| sp_space : forall s tys rest, spelled s tys rest -> spelled (String " " s) tys rest
| sp_tok : forall text ty s tys rest, writes text ty -> fits ty -> complete text ty (s ++ rest) -> text <> "*" ->
    count "010" text = 0 -> spelled s tys rest -> spelled (text ++ s) (ty :: tys) rest
| sp_times : forall s tys rest, spelled s tys rest -> spelled (String " " (String "*" s)) (TTimes :: tys) rest.

Lemma spelled_app s1 t1 s2 t2 rest : spelled s1 t1 (s2 ++ rest) -> spelled s2 t2 rest -> spelled (s1 ++ s2) (t1 ++ t2) rest.
Proof.
  intros H. remember (s2 ++ rest)%string as r eqn:E. induction H as [r|s tys r H IH|text ty s tys r W F C N K H IH|s tys r H IH]; intros H2; subst.
  - exact H2.
  - cbn. apply sp_space. auto.
  - rewrite app_assoc_s. cbn. apply sp_tok; auto. now rewrite app_assoc_s.
  - cbn. apply sp_times. auto.
Qed.

Lemma stops_space t : stops (String " " t). Proof. right. cbn. tauto. Qed.
Lemma stops_paren t : stops (String ")" t). Proof. right. cbn. tauto. Qed.
Lemma stops_comma t : stops (String "," t). Proof. right. cbn. tauto. Qed.
Lemma stops_colon t : stops (String ":" t). Proof. right. cbn. tauto. Qed.
Lemma stops_lf t : stops (String "010" t). Proof. right. cbn. tauto. Qed.
Lemma stops_nil : stops "". Proof. now left. Qed.
Local Hint Resolve stops_space stops_paren stops_comma stops_colon stops_lf stops_nil : stops.

Lemma stopper_name c : stopper c -> ~ name_char c /\ c <> "%"%char.
Proof.
  intros H. cbn in H. split.
  - rewrite <- name_char_iff. repeat destruct H as [<-|H]; try (vm_compute; discriminate). destruct H.
  - repeat destruct H as [<-|H]; try discriminate. destruct H.
Qed.

Lemma stopper_digit base c v : stopper c -> digit base c v -> False.
Proof. intros H [I _]. cbn in H, I. repeat destruct H as [<-|H]; try (repeat destruct I as [I|I]; try discriminate; exact I). exact H. Qed.

Lemma stops_number base rest : stops rest -> ~ more_number base rest.
Proof.
  intros [->|H]; [auto|]. destruct rest as [|c t]; [auto|]. cbn in H |- *. intros [(v & D)|(-> & _)].
  - now apply (stopper_digit base c v).
  - cbn in H. repeat destruct H as [H|H]; try discriminate. exact H.
Qed.

Lemma stopper_letter c : stopper c -> ~ In c ["x"; "X"; "o"; "O"; "b"; "B"]%char.
Proof.
  intros H I. cbn in H. destruct H as [<-|[<-|[<-|[<-|[<-|[<-|[]]]]]]]; cbn in I; intuition discriminate.
Qed.

Lemma stops_complete text ty rest : stops rest -> ty <> TColon -> complete text ty rest.
Proof.
  intros S N. destruct ty; cbn; auto.
  - destruct S as [->|S]; [cbn; auto|]. destruct rest as [|c t]; [auto|]. cbn in *. apply stopper_name in S. tauto.
  - destruct r; try (now apply stops_number). split; [now apply stops_number|]. intros [_ P]. apply prefixes_number_iff in P as (x & u & -> & P).
    destruct S as [S|S]; [discriminate|]. cbn in S. apply stopper_letter in S.
    destruct P as [[P _]|[[P _]|[P _]]]; destruct P; subst; cbn in S; tauto.
  - destruct S as [->|S]; [cbn; auto|]. destruct rest as [|c t]; [auto|]. cbn in *. apply stopper_name in S. tauto.
Qed.

Lemma name_no_lf w : all_chars name_char w -> count "010" w = 0.
Proof.
  induction w as [|c w IH]; intros H; [reflexivity|]. destruct H as [H1 H2]. cbn [count].
  destruct (ascii_dec "010" c) as [<-|]; [|now apply IH]. apply name_char_iff in H1. discriminate.
Qed.

Lemma start_is_char c : name_start c -> name_char c.
Proof. unfold name_start, name_char. intros [H|H]; [now left|right]. cbn in *. tauto. Qed.

Lemma ident_no_lf w : identifier w -> count "010" w = 0.
Proof. intros H. apply name_no_lf. destruct w as [|c t]; [destruct H|]. destruct H as [A B]. split; [now apply start_is_char|exact B]. Qed.

Lemma digits_no_lf base s vs : more_digits base s vs -> count "010" s = 0.
Proof.
  assert (K: forall c v, digit base c v -> c <> "010"%char).
  { intros c v [I _] ->. cbn in I. repeat destruct I as [I|I]; try discriminate. exact I. }
  induction 1 as [|c v t vs D M IH|c v t vs D M IH]; [reflexivity| |]; apply K in D; cbn [count].
  - destruct (ascii_dec "010" c); [congruence|exact IH].
  - destruct (ascii_dec "010" "'") as [X|]; [discriminate|]. destruct (ascii_dec "010" c); [congruence|exact IH].
Qed.

Lemma numeral_no_lf text n r : numeral text n r -> count "010" text = 0.
Proof.
  intros (p & base & body & vs & I & -> & (c & v & t & ws & -> & -> & D & M) & _). rewrite count_app.
  assert (P: count "010" p = 0). { cbn in I. repeat destruct I as [I|I]; try (injection I as <- _ _; reflexivity). destruct I. }
  rewrite P. cbn [count plus]. destruct (ascii_dec "010" c) as [<-|_].
  - destruct D as [D _]. cbn in D. repeat destruct D as [D|D]; try discriminate. destruct D.
  - now apply digits_no_lf in M.
Qed.

Lemma ident_not_star w : identifier w -> w <> "*".
Proof. intros H ->. destruct H as [H _]. apply name_start_iff in H. discriminate. Qed.

Lemma numeral_not_star text n r : numeral text n r -> text <> "*".
Proof.
  intros (p & base & body & vs & I & -> & (c & v & t & ws & -> & -> & D & M) & _) E.
  cbn in I. repeat destruct I as [I|I]; try (injection I as <- <- <-; cbn in E; discriminate); [|destruct I].
  injection I as <- <- <-. cbn in E. injection E as -> _. destruct D as [D _]. cbn in D. repeat destruct D as [D|D]; try discriminate. exact D.
Qed.

Lemma sp_name w rest s tys : plain_name w -> stops (s ++ rest) -> spelled s tys rest -> spelled (w ++ s) (TName w :: tys) rest.
Proof.
  intros [I L] S H. apply sp_tok; [rewrite <- L at 2; now apply w_name|exact Logic.I|now apply stops_complete|now apply ident_not_star|now apply ident_no_lf|exact H].
Qed.

Lemma sp_number text n r rest s tys : numeral text n r -> (n <= 2147483647)%Z -> stops (s ++ rest) -> spelled s tys rest ->
  spelled (text ++ s) (TNumber n r :: tys) rest.
Proof.
  intros N L S H. apply sp_tok; [now apply w_number|exact L|now apply stops_complete|now apply numeral_not_star in N|now apply numeral_no_lf in N|exact H].
Qed.

Lemma sp_punct text ty rest s tys : In (text, ty) punctuation -> text <> "*" -> ty <> TColon -> spelled s tys rest ->
  spelled (text ++ s) (ty :: tys) rest.
Proof.
  intros I N C H. apply sp_tok; auto.
  - now apply w_punct.
  - cbn in I. repeat destruct I as [I|I]; try (injection I as <- <-; exact Logic.I). destruct I.
  - cbn in I. repeat destruct I as [I|I]; try (injection I as <- <-; cbn; exact Logic.I || congruence). destruct I.
  - cbn in I. repeat destruct I as [I|I]; try (injection I as <- <-; reflexivity). destruct I.
Qed.

(** * Expressions *)

Fixpoint etoks (e : expr) : list token_type :=
  let otoks x := if complex x then TLeftParen :: etoks x ++ [TRightParen] else etoks x in
  match e with
  | EXor l r => otoks l ++ TCaret :: otoks r
  | EAnd l r => otoks l ++ TAmpersand :: otoks r
  | EOr l r => otoks l ++ TPipe :: otoks r
  | EName n => [TName n]
  | EPlus l r => otoks l ++ TPlus :: otoks r
  | EMinus l r => otoks l ++ TMinus :: otoks r
  | EUnaryMinus x => TMinus :: otoks x
  | ETimes l r => otoks l ++ TTimes :: otoks r
  | EDivide l r => otoks l ++ TDivide :: otoks r
  | ENumber n r => [TNumber n r]
  | EUpperByte x => TUpperByte :: otoks x
  | ELowerByte x => TLowerByte :: otoks x
  | EMacroLabel n => [TMacroLabel n]
  | EMacroArg n => [TMacroIdent n]
  end.

Definition otoks (x : expr) : list token_type := if complex x then TLeftParen :: etoks x ++ [TRightParen] else etoks x.

Lemma lift_level l ts e : expression Unaries ts e -> expression l ts e.
Proof.
  intros H. destruct l; [| | |exact H]; repeat (apply g_tighter; [|discriminate]; cbn); exact H.
Qed.

Lemma simple_unary e : complex e = false -> expression Unaries (etoks e) e.
Proof. destruct e; intros H; try discriminate; cbn; first [apply g_name|apply g_number|apply g_macro_label|apply g_macro_arg]. Qed.

Lemma etoks_both : forall e, expression Bits (etoks e) e /\ expression Unaries (otoks e) e.
Proof.
  assert (B: forall op l mk a b, In (op, l, mk) operators -> complex (mk a b) = true -> etoks (mk a b) = otoks a ++ op :: otoks b ->
    expression Unaries (otoks a) a -> expression Unaries (otoks b) b ->
    expression Bits (etoks (mk a b)) (mk a b) /\ expression Unaries (otoks (mk a b)) (mk a b)).
  { intros op l mk a b I C E A Bb.
    assert (X: expression Bits (etoks (mk a b)) (mk a b)).
    { rewrite E. assert (Y: expression l (otoks a ++ op :: otoks b) (mk a b)).
      { apply (g_binary op l mk); [exact I|now apply lift_level|now apply lift_level]. }
      cbn in I. repeat destruct I as [I|I]; try (injection I as <- <- <-;
        first [exact Y|apply g_tighter; [exact Y|discriminate]|apply g_tighter; [apply g_tighter; [exact Y|discriminate]|discriminate]]). contradiction. }
    split; [exact X|]. unfold otoks. rewrite C. now apply g_paren. }
  assert (U: forall op mk a, In (op, mk) unary_operators -> complex (mk a) = true -> etoks (mk a) = op :: otoks a ->
    expression Unaries (otoks a) a -> expression Bits (etoks (mk a)) (mk a) /\ expression Unaries (otoks (mk a)) (mk a)).
  { intros op mk a I C E A.
    assert (X: expression Bits (etoks (mk a)) (mk a)) by (rewrite E; apply lift_level; now apply g_unary).
    split; [exact X|]. unfold otoks. rewrite C. now apply g_paren. }
  induction e as [n| | | | | | | | | | | | | ]; 
    try (match goal with |- context[EPlus ?a ?b] => apply (B TPlus Sums EPlus a b)
         | |- context[EMinus ?a ?b] => apply (B TMinus Sums EMinus a b)
         | |- context[ETimes ?a ?b] => apply (B TTimes Products ETimes a b)
         | |- context[EDivide ?a ?b] => apply (B TDivide Products EDivide a b)
         | |- context[EAnd ?a ?b] => apply (B TAmpersand Bits EAnd a b)
         | |- context[EOr ?a ?b] => apply (B TPipe Bits EOr a b)
         | |- context[EXor ?a ?b] => apply (B TCaret Bits EXor a b)
         | |- context[EUnaryMinus ?a] => apply (U TMinus EUnaryMinus a)
         | |- context[EUpperByte ?a] => apply (U TUpperByte EUpperByte a)
         | |- context[ELowerByte ?a] => apply (U TLowerByte ELowerByte a)
         end; (reflexivity || (cbn; tauto) || tauto));
    (split; [apply lift_level; now apply simple_unary|unfold otoks; now apply simple_unary]).
Qed.

Lemma spelled_paren s tys rest : spelled s tys (String ")" rest) -> spelled ("(" ++ s ++ ")") (TLeftParen :: tys ++ [TRightParen]) rest.
Proof.
  intros H. apply (sp_punct "(" TLeftParen); [cbn; tauto|discriminate|discriminate|].
  apply spelled_app; [exact H|].
  change ")" with (")" ++ "")%string. apply sp_punct; [cbn; tauto|discriminate|discriminate|constructor].
Qed.

Lemma spelled_binary text op a b ta tb rest : In (text, op) punctuation -> op <> TColon ->
  spelled a ta (" " ++ text ++ " " ++ b ++ rest) -> spelled b tb rest ->
  spelled (a ++ (" " ++ text ++ " ") ++ b) (ta ++ op :: tb) rest.
Proof.
  intros I N A B. apply spelled_app; [rewrite !app_assoc_s; exact A|].
  destruct (string_dec text "*") as [->|NS].
  - assert (op = TTimes) as ->. { cbn in I. repeat destruct I as [I|I]; try discriminate; [now injection I as <-|destruct I]. }
    cbn. apply sp_times. now apply sp_space.
  - rewrite !app_assoc_s. cbn. apply sp_space. apply sp_punct; auto. now apply sp_space.
Qed.

Lemma operand_eq e : operand e (show_expr e) = if complex e then ("(" ++ show_expr e ++ ")")%string else show_expr e.
Proof. reflexivity. Qed.

Lemma show_expr_spelled : forall e rest, printable e -> stops rest -> spelled (show_expr e) (etoks e) rest.
Proof.
  intros e. 
  assert (O: forall x, (forall rest, printable x -> stops rest -> spelled (show_expr x) (etoks x) rest) ->
    forall rest, printable x -> stops rest -> spelled (operand x (show_expr x)) (otoks x) rest).
  { intros x IH rest P S. unfold operand, otoks. destruct (complex x); [|now apply IH]. apply spelled_paren. apply IH; auto with stops. }
  assert (B: forall text op a b rest, In (text, op) punctuation -> op <> TColon ->
    (forall rest, printable a -> stops rest -> spelled (show_expr a) (etoks a) rest) ->
    (forall rest, printable b -> stops rest -> spelled (show_expr b) (etoks b) rest) ->
    (lexable a /\ lexable b) /\ (octal_free a /\ octal_free b) -> stops rest ->
    spelled (operand a (show_expr a) ++ (" " ++ text ++ " ") ++ operand b (show_expr b)) (otoks a ++ op :: otoks b) rest).
  { intros text op a b rest I N A Bb [[L1 L2] [F1 F2]] S. apply spelled_binary; auto.
    - apply O; [exact A|split; assumption|apply stops_space].
    - apply O; [exact Bb|split; assumption|exact S]. }
  assert (U: forall text op a rest, In (text, op) punctuation -> op <> TColon -> text <> "*" ->
    (forall rest, printable a -> stops rest -> spelled (show_expr a) (etoks a) rest) ->
    printable a -> stops rest -> spelled (text ++ operand a (show_expr a)) (op :: otoks a) rest).
  { intros text op a rest I N NS A P S. apply sp_punct; auto. }
  induction e; intros rest P S.
  all: try (match goal with |- context[EPlus ?a ?b] => apply (B "+" TPlus a b)
         | |- context[EMinus ?a ?b] => apply (B "-" TMinus a b)
         | |- context[ETimes ?a ?b] => apply (B "*" TTimes a b)
         | |- context[EDivide ?a ?b] => apply (B "/" TDivide a b)
         | |- context[EAnd ?a ?b] => apply (B "&" TAmpersand a b)
         | |- context[EOr ?a ?b] => apply (B "|" TPipe a b)
         | |- context[EXor ?a ?b] => apply (B "^" TCaret a b)
         | |- context[EUnaryMinus ?a] => apply (U "-" TMinus a)
         | |- context[EUpperByte ?a] => apply (U ">" TUpperByte a)
         | |- context[ELowerByte ?a] => apply (U "<" TLowerByte a)
         end; try assumption; try discriminate; cbn; tauto).
  - destruct P as [P _]. cbn in P |- *. rewrite <- (app_nil_r_s name) at 1. apply sp_name; [exact P|exact S|constructor].
  - destruct P as [L F]. cbn [lexable octal_free] in L, F. cbn [show_expr etoks]. rewrite <- (app_nil_r_s (show_number num r)).
    apply sp_number; [now apply show_number_numeral|lia|exact S|constructor].
  - destruct P as [(w & [I L] & ->) _]. cbn [show_expr etoks]. rewrite <- (app_nil_r_s (w ++ "%")) at 1.
    apply sp_tok; [pose proof (w_macro_label w I) as W; rewrite L in W; exact W|exact Logic.I|exact Logic.I| | |constructor].
    + intros E. destruct w as [|c w]; [destruct I|]. destruct w; discriminate.
    + rewrite count_app. now rewrite ident_no_lf.
  - destruct P as [(w & [I L] & ->) _]. cbn [show_expr etoks]. rewrite <- (app_nil_r_s (String "%" w)) at 1.
    apply sp_tok; [pose proof (w_macro_ident w I) as W; rewrite L in W; exact W|exact Logic.I|now apply stops_complete|discriminate| |constructor].
    cbn [count]. destruct (ascii_dec "010" "%") as [X|]; [discriminate|]. now apply ident_no_lf.
Qed.
