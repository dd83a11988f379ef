(** The check of a source file against UTF-8 as specified. *)
From Coq Require Import ZArith List String Ascii Bool Lia.
From Verif Require Import Base Files Span SpanParser SpanAsm SpanInclude SpecUtf8.
Import ListNotations.
Open Scope string_scope.
Open Scope list_scope.
Open Scope Z_scope.

Definition z (c : ascii) : Z := Z.of_nat (nat_of_ascii c).

Lemma z_range : forall c, 0 <= z c <= 255.
Proof. intros c. unfold z. pose proof (nat_ascii_bounded c). lia. Qed.

Lemma in_range_z lo hi c : in_range lo hi c = (Z.of_nat lo <=? z c) && (z c <=? Z.of_nat hi).
Proof.
  unfold in_range, z. apply eq_true_iff_eq. rewrite !andb_true_iff, !Nat.leb_le, !Z.leb_le. lia.
Qed.

Lemma eqb_z a n : (n < 256)%nat -> Ascii.eqb a (ascii_of_nat n) = (z a =? Z.of_nat n).
Proof.
  intros L. apply eq_true_iff_eq. rewrite Ascii.eqb_eq, Z.eqb_eq. unfold z. split.
  - intros ->. now rewrite nat_ascii_embedding.
  - intros H. rewrite <- (ascii_nat_embedding a). f_equal. lia.
Qed.

(** The ranges of the bytes of a character. *)
Definition two (a b : Z) : bool := (194 <=? a) && (a <=? 223) && ((128 <=? b) && (b <=? 191)).
Definition three (a b c : Z) : bool :=
  ((a =? 224) && ((160 <=? b) && (b <=? 191)) || ((225 <=? a) && (a <=? 236)) && ((128 <=? b) && (b <=? 191)) ||
   (a =? 237) && ((128 <=? b) && (b <=? 159)) || ((238 <=? a) && (a <=? 239)) && ((128 <=? b) && (b <=? 191))) &&
  ((128 <=? c) && (c <=? 191)).
Definition four (a b c d : Z) : bool :=
  ((a =? 240) && ((144 <=? b) && (b <=? 191)) || ((241 <=? a) && (a <=? 243)) && ((128 <=? b) && (b <=? 191)) ||
   (a =? 244) && ((128 <=? b) && (b <=? 143))) && ((128 <=? c) && (c <=? 191)) && ((128 <=? d) && (d <=? 191)).

Lemma valid_step a t : valid_utf8 (String a t) =
  if z a <=? 127 then valid_utf8 t
  else match t with
  | String b t2 => if two (z a) (z b) then valid_utf8 t2
    else match t2 with
    | String c t3 => if three (z a) (z b) (z c) then valid_utf8 t3
      else match t3 with
      | String d t4 => if four (z a) (z b) (z c) (z d) then valid_utf8 t4 else false
      | EmptyString => false
      end
    | EmptyString => false
    end
  | EmptyString => false
  end.
Proof.
  cbn [valid_utf8]. rewrite !in_range_z. change (Z.of_nat 0) with 0.
  replace (0 <=? z a) with true by (symmetry; apply Z.leb_le; apply z_range). cbn [andb]. change (Z.of_nat 127) with 127.
  destruct (z a <=? 127); [reflexivity|]. destruct t as [|b t2]; [reflexivity|]. rewrite !in_range_z.
  unfold two. change (Z.of_nat 194) with 194. change (Z.of_nat 223) with 223. change (Z.of_nat 128) with 128. change (Z.of_nat 191) with 191.
  destruct (_ && _); [reflexivity|]. destruct t2 as [|c t3]; [reflexivity|]. rewrite !in_range_z.
  change "224"%char with (ascii_of_nat 224). change "237"%char with (ascii_of_nat 237). change "240"%char with (ascii_of_nat 240). change "244"%char with (ascii_of_nat 244).
  rewrite !eqb_z by lia. unfold three, four.
  change (Z.of_nat 224) with 224. change (Z.of_nat 237) with 237. change (Z.of_nat 225) with 225. change (Z.of_nat 236) with 236.
  change (Z.of_nat 238) with 238. change (Z.of_nat 239) with 239. change (Z.of_nat 160) with 160. change (Z.of_nat 191) with 191.
  change (Z.of_nat 159) with 159. change (Z.of_nat 128) with 128.
  destruct (_ && _) eqn:T; [reflexivity|]. destruct t3 as [|d t4]; [reflexivity|]. rewrite !in_range_z. reflexivity.
Qed.

Ltac split_bools := repeat match goal with
  | H : _ && _ = true |- _ => apply andb_true_iff in H; destruct H
  | H : _ || _ = true |- _ => apply orb_true_iff in H
  | H : _ \/ _ |- _ => destruct H
  end.

Ltac arith := repeat match goal with
  | H : (_ <=? _) = true |- _ => apply Z.leb_le in H
  | H : (_ =? _) = true |- _ => apply Z.eqb_eq in H
  end; rewrite ?Z.leb_gt; lia.

Lemma encode2 a b : two a b = true -> exists n, scalar n /\ encode n = [a; b].
Proof.
  unfold two. intros H. split_bools. rewrite ?Z.leb_le in *. exists ((a - 192) * 64 + (b - 128)).
  split; [unfold scalar; lia|]. unfold encode.
  replace (_ <? 128) with false by (symmetry; apply Z.ltb_ge; lia). replace (_ <? 2048) with true by (symmetry; apply Z.ltb_lt; lia).
  f_equal; [|f_equal]; Z.to_euclidean_division_equations; lia.
Qed.

Lemma encode3 a b c : three a b c = true -> exists n, scalar n /\ encode n = [a; b; c].
Proof.
  unfold three. intros H. exists ((a - 224) * 4096 + (b - 128) * 64 + (c - 128)).
  assert (R: 224 <= a <= 239 /\ 128 <= b <= 191 /\ 128 <= c <= 191 /\ (a = 224 -> 160 <= b) /\ (a = 237 -> b <= 159)) by (split_bools; arith).
  clear H. split; [unfold scalar; lia|]. unfold encode.
  replace (_ <? 128) with false by (symmetry; apply Z.ltb_ge; lia). replace (_ <? 2048) with false by (symmetry; apply Z.ltb_ge; lia).
  replace (_ <? 65536) with true by (symmetry; apply Z.ltb_lt; lia).
  f_equal; [|f_equal; [|f_equal]]; Z.to_euclidean_division_equations; lia.
Qed.

Lemma encode4 a b c d : four a b c d = true -> exists n, scalar n /\ encode n = [a; b; c; d].
Proof.
  unfold four. intros H. exists ((a - 240) * 262144 + (b - 128) * 4096 + (c - 128) * 64 + (d - 128)).
  assert (R: 240 <= a <= 244 /\ 128 <= b <= 191 /\ 128 <= c <= 191 /\ 128 <= d <= 191 /\ (a = 240 -> 144 <= b) /\ (a = 244 -> b <= 143)) by (split_bools; arith).
  clear H. split; [unfold scalar; lia|]. unfold encode.
  replace (_ <? 128) with false by (symmetry; apply Z.ltb_ge; lia). replace (_ <? 2048) with false by (symmetry; apply Z.ltb_ge; lia).
  replace (_ <? 65536) with false by (symmetry; apply Z.ltb_ge; lia).
  f_equal; [|f_equal; [|f_equal; [|f_equal]]]; Z.to_euclidean_division_equations; lia.
Qed.

Lemma encode_cases n : scalar n ->
  (encode n = [n] /\ 0 <= n <= 127) \/ (exists a b, encode n = [a; b] /\ two a b = true /\ n = (a - 192) * 64 + (b - 128)) \/
  (exists a b c, encode n = [a; b; c] /\ three a b c = true /\ n = (a - 224) * 4096 + (b - 128) * 64 + (c - 128)) \/
  (exists a b c d, encode n = [a; b; c; d] /\ four a b c d = true /\ n = (a - 240) * 262144 + (b - 128) * 4096 + (c - 128) * 64 + (d - 128)).
Proof.
  unfold scalar, encode. intros S. destruct (Z.ltb_spec n 128); [left; split; [reflexivity|lia]|]. right.
  destruct (Z.ltb_spec n 2048); [left|right; destruct (Z.ltb_spec n 65536); [left|right]].
  - eexists _, _. split; [reflexivity|].
    assert (Q: exists q r, n = 64 * q + r /\ 0 <= r < 64 /\ n / 64 = q /\ n mod 64 = r) by
      (exists (n / 64), (n mod 64); repeat split; Z.to_euclidean_division_equations; lia).
    destruct Q as (q & r & E & R & -> & ->). split; [|lia]. unfold two. rewrite !andb_true_iff, !Z.leb_le. lia.
  - eexists _, _, _. split; [reflexivity|].
    assert (Q: exists q p r, n = 4096 * q + 64 * p + r /\ 0 <= r < 64 /\ 0 <= p < 64 /\ n / 4096 = q /\ (n / 64) mod 64 = p /\ n mod 64 = r) by
      (exists (n / 4096), ((n / 64) mod 64), (n mod 64); repeat split; Z.to_euclidean_division_equations; lia).
    destruct Q as (q & p & r & E & R & P & -> & -> & ->). split; [|lia].
    unfold three. rewrite !andb_true_iff, !orb_true_iff, !andb_true_iff, !Z.leb_le, !Z.eqb_eq. lia.
  - eexists _, _, _, _. split; [reflexivity|].
    assert (Q: exists q o p r, n = 262144 * q + 4096 * o + 64 * p + r /\ 0 <= r < 64 /\ 0 <= p < 64 /\ 0 <= o < 64 /\
      n / 262144 = q /\ (n / 4096) mod 64 = o /\ (n / 64) mod 64 = p /\ n mod 64 = r) by
      (exists (n / 262144), ((n / 4096) mod 64), ((n / 64) mod 64), (n mod 64); repeat split; Z.to_euclidean_division_equations; lia).
    destruct Q as (q & o & p & r & E & R & P & O & -> & -> & -> & ->). split; [|lia].
    unfold four. rewrite !andb_true_iff, !orb_true_iff, !andb_true_iff, !Z.leb_le, !Z.eqb_eq. lia.
Qed.

Lemma valid_spelled : forall k s, (String.length s <= k)%nat -> valid_utf8 s = true -> exists points, spells s points.
Proof.
  induction k as [|k IH]; intros s L V.
  - destruct s; [|cbn in L; lia]. exists []. split; [constructor|reflexivity].
  - destruct s as [|a t]; [exists []; split; [constructor|reflexivity]|]. rewrite valid_step in V. cbn [String.length] in L.
    destruct (Z.leb_spec (z a) 127) as [A|A].
    { destruct (IH t) as (l & F & B); [lia|exact V|]. exists (z a :: l). pose proof (z_range a). split; [constructor; [unfold scalar; lia|exact F]|].
      cbn [octets map List.concat]. unfold encode at 1. replace (z a <? 128) with true by (symmetry; apply Z.ltb_lt; lia). cbn [app]. now rewrite B. }
    destruct t as [|b t2]; [discriminate|]. cbn [String.length] in L. destruct (two _ _) eqn:T2.
    { destruct (encode2 _ _ T2) as (n & S & E). destruct (IH t2) as (l & F & B); [lia|exact V|]. exists (n :: l). split; [now constructor|].
      cbn [octets map List.concat]. rewrite E, B. reflexivity. }
    destruct t2 as [|c t3]; [discriminate|]. cbn [String.length] in L. destruct (three _ _ _) eqn:T3.
    { destruct (encode3 _ _ _ T3) as (n & S & E). destruct (IH t3) as (l & F & B); [lia|exact V|]. exists (n :: l). split; [now constructor|].
      cbn [octets map List.concat]. rewrite E, B. reflexivity. }
    destruct t3 as [|d t4]; [discriminate|]. cbn [String.length] in L. destruct (four _ _ _ _) eqn:T4; [|discriminate].
    destruct (encode4 _ _ _ _ T4) as (n & S & E). destruct (IH t4) as (l & F & B); [lia|exact V|]. exists (n :: l). split; [now constructor|].
    cbn [octets map List.concat]. rewrite E, B. reflexivity.
Qed.

Lemma spelled_valid : forall points s, spells s points -> valid_utf8 s = true.
Proof.
  induction points as [|n l IH]; intros s [F B].
  - destruct s; [reflexivity|discriminate].
  - inversion F as [|? ? S F']; subst. cbn [map List.concat] in B.
    destruct (encode_cases n S) as [[E R]|[(a & b & E & T & _)|[(a & b & c & E & T & _)|(a & b & c & d & E & T & _)]]]; rewrite E in B; cbn [app] in B.
    + destruct s as [|x s]; [discriminate|]. cbn [octets] in B. injection B as X B. fold (z x) in X. rewrite valid_step.
      replace (z x <=? 127) with true by (symmetry; apply Z.leb_le; lia). apply IH. now split.
    + destruct s as [|x [|y s]]; try discriminate. cbn [octets] in B. injection B as X Y B. fold (z x) in X. fold (z y) in Y. rewrite valid_step, X, Y, T.
      replace (a <=? 127) with false; [apply IH; now split|]. symmetry. unfold two in T. split_bools. arith.
    + destruct s as [|x [|y [|w s]]]; try discriminate. cbn [octets] in B. injection B as X Y W B. fold (z x) in X. fold (z y) in Y. fold (z w) in W.
      rewrite valid_step, X, Y, W, T.
      assert (A: 224 <= a <= 239) by (unfold three in T; split_bools; arith).
      replace (a <=? 127) with false by (symmetry; apply Z.leb_gt; lia).
      replace (two a b) with false; [apply IH; now split|]. symmetry. unfold two. apply andb_false_iff. left. apply andb_false_iff. right. apply Z.leb_gt. lia.
    + destruct s as [|x [|y [|w [|v s]]]]; try discriminate. cbn [octets] in B. injection B as X Y W V B. fold (z x) in X. fold (z y) in Y. fold (z w) in W. fold (z v) in V.
      rewrite valid_step, X, Y, W, V, T.
      assert (A: 240 <= a <= 244) by (unfold four in T; split_bools; arith).
      replace (a <=? 127) with false by (symmetry; apply Z.leb_gt; lia).
      replace (two a b) with false by (symmetry; unfold two; apply andb_false_iff; left; apply andb_false_iff; right; apply Z.leb_gt; lia).
      replace (three a b c) with false; [apply IH; now split|]. symmetry. apply not_true_is_false. intros H. unfold three in H. split_bools; arith.
Qed.

Lemma encode_prefix m n a b : scalar m -> scalar n -> encode m ++ a = encode n ++ b -> m = n /\ a = b.
Proof.
  intros M N H.
  destruct (encode_cases m M) as [[E R]|[(x & y & E & T & V)|[(x & y & w & E & T & V)|(x & y & w & v & E & T & V)]]];
  destruct (encode_cases n N) as [[E' R']|[(x' & y' & E' & T' & V')|[(x' & y' & w' & E' & T' & V')|(x' & y' & w' & v' & E' & T' & V')]]];
  rewrite E, E' in H; cbn [app] in H; injection H; clear E E' H M N; intros; subst; try (split; reflexivity); exfalso;
  unfold two, three, four in *; split_bools; arith.
Qed.

Lemma spelled_once : forall l l', Forall scalar l -> Forall scalar l' -> List.concat (map encode l) = List.concat (map encode l') -> l = l'.
Proof.
  assert (NE: forall n, scalar n -> encode n <> []).
  { intros n _. unfold encode. destruct (n <? 128), (n <? 2048), (n <? 65536); discriminate. }
  induction l as [|m l IH]; intros [|n l'] F F' H; [reflexivity| | |]; cbn [map List.concat] in H.
  - inversion F'; subst. exfalso. apply (NE n); [assumption|]. destruct (encode n); [reflexivity|discriminate].
  - inversion F; subst. exfalso. apply (NE m); [assumption|]. destruct (encode m); [reflexivity|discriminate].
  - inversion F; inversion F'; subst. destruct (encode_prefix m n _ _ H2 H6 H) as [-> E]. f_equal. now apply IH.
Qed.

Lemma utf8_iff s : valid_utf8 s = true <-> utf8 s.
Proof. split; [now apply (valid_spelled (String.length s))|]. intros [points H]. exact (spelled_valid points s H). Qed.

Lemma not_utf8 s : valid_utf8 s = false <-> ~ utf8 s.
Proof. rewrite <- utf8_iff. destruct (valid_utf8 s); intuition discriminate. Qed.

(** * The table of files *)

Section Kept.
Variable w : fs.

Definition as_read (f : source_file) : Prop := read_bytes w (sf_name f) = Some (sf_contents f) /\ utf8 (sf_contents f).
Definition all_read (s : source_files) : Prop := Forall as_read (sf_list s).

Lemma keep_bind {A B : Type} (x : traced A) (f : A -> source_files -> traced B) :
  all_read (snd x) -> (forall a s, all_read s -> all_read (snd (f a s))) -> all_read (snd (tbind x f)).
Proof. intros X F. destruct x as [[a|e at_| |] s]; cbn [tbind snd] in *; auto. Qed.

Lemma keep_load s root name : all_read s -> all_read (snd (load_s w s root name)).
Proof.
  intros H. unfold load_s, load. destruct (path_of w s root name) as [p| | |]; cbn [bind snd]; auto.
  destruct (get_id s p) as [id|]; [destruct (nth_error (sf_list s) id); auto|].
  unfold load_file. destruct (read_bytes w p) as [bytes|] eqn:R; cbn [bind snd]; auto. destruct (valid_utf8 bytes) eqn:V; cbn [bind snd]; auto.
  unfold all_read. cbn [sf_list]. apply Forall_app. split; [exact H|]. constructor; [|constructor]. split; [exact R|]. now apply utf8_iff.
Qed.

Lemma keep_line rec name s line : (forall n s toks, all_read s -> all_read (snd (rec n s toks))) -> all_read s -> all_read (snd (include_line_s rec w name s line)).
Proof.
  intros R H. unfold include_line_s. destruct (parse_directive_s line) as [[[stmt|] r]|e at_| |]; cbn [snd]; auto.
  apply keep_bind; [exact H|]. clear s H. intros fixed s H. destruct fixed as [d| | | | | |]; auto. destruct d as [| | | | |sp typ p|]; auto. destruct typ; auto.
  - apply keep_bind; [now apply keep_load|]. intros file s2 H2. apply keep_bind; [exact H2|]. intros toks s3 H3. apply keep_bind; [now apply R|].
    intros new s4 H4. destruct (negb _); auto.
  - apply keep_bind; [now apply keep_load|]. auto.
Qed.

Lemma keep_lines rec name : (forall n s toks, all_read s -> all_read (snd (rec n s toks))) -> forall ls s, all_read s -> all_read (snd (include_lines_s rec w name s ls)).
Proof.
  intros R. induction ls as [|l ls IH]; intros s H; cbn [include_lines_s]; auto.
  apply keep_bind; [now apply keep_line|]. intros a s2 H2. apply keep_bind; [now apply IH|]. auto.
Qed.

Lemma keep_includes : forall fuel name s toks, all_read s -> all_read (snd (replace_includes_s fuel w name s toks)).
Proof. induction fuel as [|fuel IH]; intros name s toks H; cbn [replace_includes_s]; auto. now apply keep_lines. Qed.

Lemma keep_run uuid pr fuel pics s name : all_read s -> all_read (snd (assemble_file_s uuid pr fuel w pics s name)).
Proof.
  intros H. unfold assemble_file_s. apply keep_bind; [|intros a s2 H2; apply keep_bind; auto].
  unfold read_statements_s. apply keep_bind; [exact H|]. intros q s1 H1. apply keep_bind; [now apply keep_load|]. intros f s2 H2.
  apply keep_bind; [exact H2|]. intros raw s3 H3. apply keep_bind; [now apply keep_includes|]. intros ts s4 H4.
  apply keep_bind; [exact H4|]. intros st s5 H5. apply keep_bind; auto.
Qed.

End Kept.
