(** Parsers that stop at the first token that cannot be right. *)
From Coq Require Import ZArith List String Ascii Bool Arith Lia.
From Verif Require Import Base Expr Instr Ast Macro Lexer Parser SpecParse ParseProofs Span SpanParser SpecSpan SpanProofs SpanProofs2.
From Verif Require Import SpecIsa SpecMacro SpecLine LineProofs SpecSyntax.
Import ListNotations.
Open Scope string_scope.
Open Scope list_scope.
Local Open Scope nat_scope.

Local Arguments parse_expr_s : simpl never.

(** * Lists *)

Lemma prefixes : forall {A : Type} (a b c d : list A), a ++ b = c ++ d ->
  (a = c /\ b = d) \/ (exists x m, c = a ++ x :: m /\ b = x :: m ++ d) \/ (exists x m, a = c ++ x :: m /\ d = x :: m ++ b).
Proof.
  intros A a. induction a as [|x a IH]; intros b [|y c] d H; cbn in *.
  - now left.
  - right; left. eauto.
  - right; right. subst. eauto.
  - injection H as <- H. destruct (IH _ _ _ H) as [[-> ->]|[(z & m & -> & ->)|(z & m & -> & ->)]]; auto.
    + right; left. eauto.
    + right; right. eauto.
Qed.

(** * Languages *)

Definition joined (G H : language) : language := fun ts => exists a b, ts = a ++ b /\ G a /\ H b.
Definition either (G H : language) : language := fun ts => G ts \/ H ts.
Definition one (f : token_type -> bool) : language := fun ts => exists t, ts = [t] /\ f t = true.

Definition same (G H : language) : Prop := forall ts, G ts <-> H ts.

(** No token can both continue a text of [G] and begin one of [H]. *)
Definition apart (G H : language) : Prop := forall u y, G u -> completable G (u ++ [y]) -> ~ completable H [y].

Lemma completable_prefix : forall G a b, completable G (a ++ b) -> completable G a.
Proof. intros G a b (m & H). exists (b ++ m). now rewrite app_assoc. Qed.
Lemma completable_self : forall (G : language) a, G a -> completable G a.
Proof. intros G a H. exists []. now rewrite app_nil_r. Qed.
Lemma completable_same : forall G H a, same G H -> completable G a -> completable H a.
Proof. intros G H a S (m & X). exists m. now apply S. Qed.

Lemma completable_first : forall G H a, (exists b, H b) -> completable G a -> completable (joined G H) a.
Proof. intros G H a (b & B) (m & X). exists (m ++ b). exists (a ++ m), b. rewrite app_assoc. auto. Qed.
Lemma completable_second : forall (G H : language) a b, G a -> completable H b -> completable (joined G H) (a ++ b).
Proof. intros G H a b A (m & X). exists m. exists a, (b ++ m). rewrite app_assoc. auto. Qed.

(** * Parsers *)

(** The next token cannot continue. *)
Definition closed (G : language) (front : list token_type) (rest : list token) : Prop :=
  forall t r, rest = t :: r -> ~ completable G (front ++ [t_type t]).

(** At the end of the line. *)
Definition at_end (rest : list token) : Prop := fin (types rest).

(** The error is at the first token that cannot be right; [strict]: and the tokens before it are not enough. *)
Definition stuck (strict : Prop) (G : language) (ts : list token) (e : error) (at_ : list pspan) : Prop :=
  (e = UnexpectedEof /\ at_ = [] /\ completable G (types ts) /\ ~ G (types ts)) \/
  exists before t after, ts = before ++ t :: after /\ completable G (types before) /\
    ~ completable G (types before ++ [t_type t]) /\ marks t e at_ /\ (strict \/ t_type t = TEOF -> ~ G (types before)).

(** Reads a text of [G], as much as possible, from the front. *)
Definition reads {T : Type} (p : list token -> placed (T * list token)) (G : language) : Prop := forall ts,
  match p ts with
  | POk (_, r) => exists front, ts = front ++ r /\ G (types front) /\ closed G (types front) r
  | PErr e at_ => stuck True G ts e at_
  | _ => True
  end.

(** Reads a text of [G] up to the end. *)
Definition finishes {T : Type} (p : list token -> placed (T * list token)) (G : language) : Prop := forall ts,
  match p ts with
  | POk (_, r) => exists front, ts = front ++ r /\ G (types front) /\ at_end r
  | PErr e at_ => stuck False G ts e at_
  | _ => True
  end.

Lemma stuck_same : forall s G H ts e at_, same G H -> stuck s G ts e at_ -> stuck s H ts e at_.
Proof.
  intros s G H ts e at_ S [(-> & -> & C & N)|(b & t & a & -> & C & N & M & K)]; [left|right].
  - split; auto. split; auto. split; [now apply (completable_same G)|]. intros X. now apply N, S.
  - exists b, t, a. split; auto. split; [now apply (completable_same G)|]. split; [|split; auto].
    + intros X. apply N. apply (completable_same H); auto. intros ?. symmetry. apply S.
    + intros Y X. apply (K Y). now apply S.
Qed.

Lemma reads_same : forall {T : Type} (p : list token -> placed (T * list token)) G H, same G H -> reads p G -> reads p H.
Proof.
  intros T p G H S R ts. specialize (R ts). destruct (p ts) as [[v r]|e at_| |]; auto; [|now apply (stuck_same _ G)].
  destruct R as (f & -> & X & C). exists f. split; auto. split; [now apply S|]. intros t r2 E Y. apply (C t r2 E).
  apply (completable_same H); auto. intros ?. symmetry. apply S.
Qed.

Lemma finishes_same : forall {T : Type} (p : list token -> placed (T * list token)) G H, same G H -> finishes p G -> finishes p H.
Proof.
  intros T p G H S R ts. specialize (R ts). destruct (p ts) as [[v r]|e at_| |]; auto; [|now apply (stuck_same _ G)].
  destruct R as (f & -> & X & C). exists f. split; auto. split; [now apply S|]. exact C.
Qed.

Lemma tapp : forall a b, types (a ++ b) = types a ++ types b. Proof. intros. apply map_app. Qed.

(** The first part stops: the whole stops. *)
Lemma stuck_first : forall G H ts e at_ s, apart G H -> (exists b, H b) -> stuck True G ts e at_ -> stuck s (joined G H) ts e at_.
Proof.
  intros G H ts e at_ s S NE [(-> & -> & C & N)|(b & t & a & -> & C & N & M & K)].
  - left. split; auto. split; auto. split; [now apply completable_first|].
    intros (u & v & E & U & V). destruct v as [|y v]; [rewrite app_nil_r in E; congruence|].
    apply (S u y U); [apply (completable_prefix G _ v); rewrite <- app_assoc; cbn; now rewrite <- E|]. exists v. exact V.
  - right. exists b, t, a. split; auto. split; [now apply completable_first|]. specialize (K (or_introl Logic.I)).
    assert (Z: forall u v w, G u -> H v -> u ++ v = types b ++ w -> (w = [] \/ exists m, w = t_type t :: m) ->
      w <> [] /\ u = types b /\ v = w).
    { intros u v w U V E W. destruct (prefixes _ _ _ _ E) as [[-> ->]|[(y & m & B & ->)|(y & m & -> & ->)]].
      - destruct K. exact U.
      - destruct (S u y U); [|exists (m ++ w); exact V]. apply (completable_prefix G _ m). rewrite <- app_assoc. cbn. now rewrite <- B.
      - destruct W as [W|(m2 & W)]; [discriminate|]. injection W as -> _. destruct N. exists m. rewrite <- app_assoc. exact U. }
    split; [|split; [exact M|]].
    + intros (m & u & v & E & U & V). rewrite <- app_assoc in E. cbn in E. symmetry in E.
      destruct (Z u v (t_type t :: m) U V E) as (_ & -> & _); eauto.
    + intros _ (u & v & E & U & V). rewrite <- (app_nil_r (types b)) in E. symmetry in E. destruct (Z u v [] U V E) as (X & _); auto.
Qed.

(** The first part is read and the second stops. *)
Lemma stuck_second : forall G H front rest e at_ s, apart G H -> G (types front) -> closed G (types front) rest ->
  stuck s H rest e at_ -> stuck s (joined G H) (front ++ rest) e at_.
Proof.
  intros G H front rest e at_ s S X C K.
  assert (Z: forall u v w, G u -> H v -> u ++ v = types front ++ w -> (w = [] \/ exists t r m, rest = t :: r /\ w = t_type t :: m) ->
    u = types front /\ v = w).
  { intros u v w U V E W. destruct (prefixes _ _ _ _ E) as [[-> ->]|[(y & m & B & ->)|(y & m & -> & ->)]]; auto.
    - destruct (S u y U); [|exists (m ++ w); exact V]. apply (completable_prefix G _ m). rewrite <- app_assoc. cbn. rewrite <- B.
      now apply completable_self.
    - destruct W as [W|(t & r & m2 & R & W)]; [discriminate|]. injection W as -> _. destruct (C t r R). exists m. rewrite <- app_assoc. exact U. }
  destruct K as [(-> & -> & D & N)|(b & t & a & -> & D & N & M & K)].
  - left. rewrite tapp. split; auto. split; auto. split; [now apply completable_second|].
    intros (u & v & E & U & V). symmetry in E. destruct (Z _ _ _ U V E) as [_ ->]; auto.
    destruct rest as [|t r]; [now left|]. right. exists t, r, (types r). auto.
  - right. exists (front ++ b), t, a. rewrite !tapp. split; [now rewrite <- app_assoc|]. split; [now apply completable_second|].
    split; [|split; [exact M|]].
    + intros (m & u & v & E & U & V). rewrite <- !app_assoc in E. cbn in E. symmetry in E.
      destruct (Z _ _ _ U V E) as [_ ->].
      * right. destruct b as [|b0 b]; cbn; eauto.
      * apply N. exists m. rewrite <- app_assoc. exact V.
    + intros Y (u & v & E & U & V). symmetry in E. destruct (Z _ _ _ U V E) as [_ ->]; [|now apply (K Y)].
      destruct b as [|b0 b]; [now left|]. right. exists b0, (b ++ t :: a), (types b). auto.
Qed.

Lemma reads_then : forall {T U : Type} (p : list token -> placed (T * list token)) (k : T -> list token -> placed (U * list token)) G H,
  reads p G -> (forall v, reads (k v) H) -> apart G H -> (exists b, H b) ->
  reads (fun ts => pbind (p ts) (fun '(v, r) => k v r)) (joined G H).
Proof.
  intros T U p k G H P K S NE ts. specialize (P ts). destruct (p ts) as [[v r]|e at_| |]; cbn [pbind]; auto; [|now apply stuck_first].
  destruct P as (front & -> & X & C). specialize (K v r). destruct (k v r) as [[w r2]|e at_| |]; auto; [|now apply stuck_second].
  destruct K as (f2 & -> & Y & D). exists (front ++ f2). rewrite tapp. split; [now rewrite app_assoc|]. split; [exists (types front), (types f2); auto|].
  intros t r3 -> (m & u & v2 & E & U0 & V). rewrite <- !app_assoc in E. cbn in E. symmetry in E.
  destruct (prefixes _ _ _ _ E) as [[-> ->]|[(y & n & B & ->)|(y & n & -> & B)]].
  - apply (D t r3 eq_refl). exists m. rewrite <- app_assoc. exact V.
  - apply (S u y U0); [|eexists; exact V]. apply (completable_prefix G _ n). rewrite <- app_assoc. cbn. rewrite <- B. now apply completable_self.
  - assert (Q: exists t0 r0, f2 ++ t :: r3 = t0 :: r0 /\ t_type t0 = y).
    { destruct f2 as [|t0 f2]; cbn in *; injection B as <- _; eauto. }
    destruct Q as (t0 & r0 & Q & <-). apply (C t0 r0 Q). exists n. rewrite <- app_assoc. exact U0.
Qed.

Lemma reads_finish : forall {T U : Type} (p : list token -> placed (T * list token)) (k : T -> list token -> placed (U * list token)) G H,
  reads p G -> (forall v, finishes (k v) H) -> apart G H -> (exists b, H b) ->
  finishes (fun ts => pbind (p ts) (fun '(v, r) => k v r)) (joined G H).
Proof.
  intros T U p k G H P K S NE ts. specialize (P ts). destruct (p ts) as [[v r]|e at_| |]; cbn [pbind]; auto; [|now apply stuck_first].
  destruct P as (front & -> & X & C). specialize (K v r). destruct (k v r) as [[w r2]|e at_| |]; auto; [|now apply stuck_second].
  destruct K as (f2 & -> & Y & D). exists (front ++ f2). rewrite tapp. split; [now rewrite app_assoc|]. split; [exists (types front), (types f2); auto|].
  exact D.
Qed.

(** Nothing is read. *)
Definition nothing : language := fun ts => ts = [].
Lemma reads_nothing : forall {T : Type} (f : list token -> T), reads (fun ts => POk (f ts, ts)) nothing.
Proof.
  intros T f ts. exists []. split; auto. split; [reflexivity|]. intros t r -> (m & H). discriminate.
Qed.
Lemma joined_nothing : forall G, same (joined G nothing) G.
Proof.
  intros G ts. split; [intros (a & b & -> & A & ->); now rewrite app_nil_r|]. intros A. exists ts, []. rewrite app_nil_r. unfold nothing. auto.
Qed.
Lemma apart_nothing : forall G, apart G nothing. Proof. intros G u y _ _ (m & H). discriminate. Qed.

(** The value is changed. *)
Lemma reads_map : forall {T U : Type} (p : list token -> placed (T * list token)) G (f : T -> U),
  reads p G -> reads (fun ts => pbind (p ts) (fun '(v, r) => POk (f v, r))) G.
Proof. intros T U p G f R ts. specialize (R ts). destruct (p ts) as [[v r]|e at_| |]; auto. Qed.
Lemma finishes_map : forall {T U : Type} (p : list token -> placed (T * list token)) G (f : T -> U),
  finishes p G -> finishes (fun ts => pbind (p ts) (fun '(v, r) => POk (f v, r))) G.
Proof. intros T U p G f R ts. specialize (R ts). destruct (p ts) as [[v r]|e at_| |]; auto. Qed.

Lemma reads_eq : forall {T : Type} (p q : list token -> placed (T * list token)) G, (forall ts, p ts = q ts) -> reads q G -> reads p G.
Proof. intros T p q G E R ts. rewrite E. apply R. Qed.
Lemma finishes_eq : forall {T : Type} (p q : list token -> placed (T * list token)) G, (forall ts, p ts = q ts) -> finishes q G -> finishes p G.
Proof. intros T p q G E R ts. rewrite E. apply R. Qed.

(** A choice by the first token. *)
Definition starting (G : language) (f : token_type -> bool) : Prop := forall ts, G ts -> exists t r, ts = t :: r /\ f t = true.
Definition not_starting (G : language) (f : token_type -> bool) : Prop := forall t r, G (t :: r) -> f t = false.

Definition unlike (H : language) (ts : list token) : Prop := ~ H [] /\ forall t r, ts = t :: r -> forall x, ~ H (t_type t :: x).

Lemma stuck_either : forall (G H : language) ts e at_ s, unlike H ts -> stuck s G ts e at_ -> stuck s (either G H) ts e at_.
Proof.
  intros G H ts e at_ s [N0 N1] [(-> & -> & C & N)|(b & t & a & -> & C & N & M & K)].
  - left. split; auto. split; auto. split; [destruct C as (m & C); exists m; now left|].
    intros [X|X]; auto. destruct ts as [|t r]; [now apply N0|]. now apply (N1 t r eq_refl (types r)).
  - right. exists b, t, a. split; auto. split; [destruct C as (m & C); exists m; now left|]. split; [|split; [exact M|]].
    + intros (m & [X|X]); [apply N; now exists m|]. destruct b as [|b0 b].
      * now apply (N1 t a eq_refl m).
      * apply (N1 b0 (b ++ t :: a) eq_refl ((types b ++ [t_type t]) ++ m)). exact X.
    + intros Y [X|X]; [now apply (K Y)|]. destruct b as [|b0 b].
      * now apply N0.
      * now apply (N1 b0 (b ++ t :: a) eq_refl (types b)).
Qed.

Lemma either_sym : forall G H, same (either G H) (either H G). Proof. unfold either. intros G H ts. tauto. Qed.

Lemma closed_either : forall (G H : language) front r, closed G (types front) r -> unlike H (front ++ r) -> closed (either G H) (types front) r.
Proof.
  intros G H front r C [_ N] t q -> (m & [X|X]); [apply (C t q eq_refl); now exists m|].
  rewrite <- app_assoc in X. destruct front as [|f0 front].
  - now apply (N t q eq_refl m).
  - now apply (N f0 (front ++ t :: q) eq_refl (types front ++ [t_type t] ++ m)).
Qed.

Lemma closed_same : forall G H front r, same G H -> closed G front r -> closed H front r.
Proof. intros G H front r S C t q E X. apply (C t q E). apply (completable_same H); auto. intros ?. symmetry. apply S. Qed.

Lemma choice_unlike : forall f G H ts, starting G f -> not_starting H f -> ~ H [] ->
  (check_s f ts = true -> unlike H ts) /\ (check_s f ts = false -> unlike G ts).
Proof.
  intros f G H ts S N NE. unfold check_s, check_at_s.
  assert (NG: ~ G []) by (intros X; destruct (S _ X) as (? & ? & E & _); discriminate).
  split; intros C; (split; [assumption|]); intros t r -> x X; cbn [nth_error] in C.
  - rewrite (N _ _ X) in C. discriminate.
  - destruct (S _ X) as (t2 & r2 & E & F). injection E as <- <-. rewrite F in C. discriminate.
Qed.

Lemma reads_choice : forall {T : Type} (p q : list token -> placed (T * list token)) f G H,
  reads p G -> reads q H -> starting G f -> not_starting H f -> ~ H [] -> reads (fun ts => if check_s f ts then p ts else q ts) (either G H).
Proof.
  intros T p q f G H P Q S N NE ts. destruct (choice_unlike f G H ts S N NE) as [U1 U2]. destruct (check_s f ts).
  - specialize (P ts). specialize (U1 eq_refl). destruct (p ts) as [[v r]|e at_| |]; auto; [|now apply stuck_either].
    destruct P as (front & -> & X & C). exists front. split; auto. split; [now left|]. now apply closed_either.
  - specialize (Q ts). specialize (U2 eq_refl). destruct (q ts) as [[v r]|e at_| |]; auto.
    + destruct Q as (front & -> & X & C). exists front. split; auto. split; [now right|].
      apply (closed_same (either H G)); [apply either_sym|]. now apply closed_either.
    + apply (stuck_same _ (either H G)); [apply either_sym|]. now apply stuck_either.
Qed.

Lemma finishes_choice : forall {T : Type} (p q : list token -> placed (T * list token)) f G H,
  finishes p G -> finishes q H -> starting G f -> not_starting H f -> ~ H [] -> finishes (fun ts => if check_s f ts then p ts else q ts) (either G H).
Proof.
  intros T p q f G H P Q S N NE ts. destruct (choice_unlike f G H ts S N NE) as [U1 U2]. destruct (check_s f ts).
  - specialize (P ts). specialize (U1 eq_refl). destruct (p ts) as [[v r]|e at_| |]; auto; [|now apply stuck_either].
    destruct P as (front & -> & X & C). exists front. split; auto. split; [now left|]. exact C.
  - specialize (Q ts). specialize (U2 eq_refl). destruct (q ts) as [[v r]|e at_| |]; auto.
    + destruct Q as (front & -> & X & C). exists front. split; auto. split; [now right|]. exact C.
    + apply (stuck_same _ (either H G)); [apply either_sym|]. now apply stuck_either.
Qed.

(** * Single tokens *)

Lemma one_apart : forall f H, apart (one f) H.
Proof. intros f H u y (t & -> & F) (m & t2 & E & _). discriminate. Qed.

Lemma reads_one : forall {T : Type} (p : list token -> placed (T * list token)) f e0,
  unexpected e0 -> (exists t, f t = true) -> p [] = PErr UnexpectedEof [] ->
  (forall t r, if f (t_type t) then exists v, p (t :: r) = POk (v, r) else p (t :: r) = PErr e0 [mkP (t_span t) []]) ->
  reads p (one f).
Proof.
  intros T p f e0 UN (w & W) P0 P1 [|t r].
  - rewrite P0. left. split; auto. split; auto. split; [exists [w], w; auto|]. intros (t & E & _). discriminate.
  - specialize (P1 t r). destruct (f (t_type t)) eqn:F.
    + destruct P1 as (v & ->). exists [t]. split; auto. split; [exists (t_type t); auto|]. intros t2 r2 _ (m & t3 & E & _). discriminate.
    + rewrite P1. right. exists [], t, r. split; auto. split; [exists [w], w; auto|]. split; [|split].
      * intros (m & t3 & E & F3). injection E as <- _. congruence.
      * split; auto.
      * intros _ (t3 & E & _). discriminate.
Qed.
