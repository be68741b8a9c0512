(** The fixes of C52 (PropsDotNotation.v). *)
From Coq Require Import String Ascii Bool List ZArith Lia Permutation Sorted.
From Verif Require Import Base EngineProofs Fixer FixerSpec FixerProofs FixMany DotNotation DotNotationSpec DotNotationProofs.
Import ListNotations.
Open Scope Z_scope.

Lemma zl_app {A} (x y : list A) : zlen (x ++ y) = zlen x + zlen y.
Proof. unfold zlen. rewrite app_length. lia. Qed.
Lemma zl_cons {A} (a : A) x : zlen (a :: x) = 1 + zlen x.
Proof. unfold zlen. cbn [List.length]. lia. Qed.
Lemma zl_nonneg {A} (x : list A) : 0 <= zlen x.
Proof. unfold zlen. lia. Qed.
Lemma skipn_zlen {A} (x y : list A) : skipn (Z.to_nat (zlen x)) (x ++ y) = y.
Proof. unfold zlen. rewrite Nat2Z.id, skipn_app, skipn_all, Nat.sub_diag. reflexivity. Qed.

(** ** Trivia *)
Lemma space_spec c : is_space c = true <-> In (code c) [9; 10; 11; 12; 13; 32].
Proof. unfold is_space, code. rewrite existsb_exists. cbn [In]. split; [intros (n & H & E); apply Nat.eqb_eq in E; lia|]. intros H. exists (nat_of_ascii c). split; [lia|apply Nat.eqb_refl]. Qed.
Lemma newline_spec c : is_newline c = true <-> code c = 10 \/ code c = 13.
Proof. unfold is_newline, code. rewrite existsb_exists. cbn [In]. split; [intros (n & H & E); apply Nat.eqb_eq in E; lia|]. intros H. exists (nat_of_ascii c). split; [lia|apply Nat.eqb_refl]. Qed.
Lemma line_len body c r : Forall (fun x => code x <> 10 /\ code x <> 13) body -> code c = 10 \/ code c = 13 -> trivia_len MLine (body ++ c :: r) = zlen body + 1 + trivia_len MCode r.
Proof.
  intros F N. induction F as [|x body [X Y] F IH]; cbn [app trivia_len].
  - rewrite (proj2 (newline_spec c) N). change (zlen (@nil ascii)) with 0. lia.
  - destruct (is_newline x) eqn:E; [apply newline_spec in E; lia|]. rewrite IH, zl_cons. lia.
Qed.
Lemma block_len body r : (forall x y, body ++ b "*" <> x ++ b "*/" ++ y) -> trivia_len MBlock (body ++ b "*/" ++ r) = zlen body + 2 + trivia_len MCode r.
Proof.
  induction body as [|c body IH]; intros H.
  - cbn [app b list_ascii_of_string trivia_len is_ascii_char Ascii.eqb Bool.eqb]. change (zlen (@nil ascii)) with 0. lia.
  - assert (H' : forall x y, body ++ b "*" <> x ++ b "*/" ++ y) by (intros x y E; apply (H (c :: x) y); cbn [app]; now rewrite E).
    specialize (IH H'). rewrite zl_cons. cbn [app]. change (trivia_len MBlock (c :: body ++ b "*/" ++ r)) with
      (if is_ascii_char "*" c then match body ++ b "*/" ++ r with d :: r' => if is_ascii_char "/" d then 2 + trivia_len MCode r' else 1 + trivia_len MBlock (body ++ b "*/" ++ r) | [] => 1 end else 1 + trivia_len MBlock (body ++ b "*/" ++ r)).
    rewrite IH. destruct (is_ascii_char "*" c) eqn:C; [|lia]. destruct body as [|d body].
    + cbn [app b list_ascii_of_string]. change (is_ascii_char "/" "*") with false. cbn [app]. change (zlen (@nil ascii)) with 0. lia.
    + cbn [app]. destruct (is_ascii_char "/" d) eqn:D; [|rewrite zl_cons; lia]. exfalso. unfold is_ascii_char in C, D. apply Ascii.eqb_eq in C, D. subst c d. apply (H [] (body ++ b "*")). reflexivity.
Qed.
Lemma trivium_len t r : trivium t -> trivia_len MCode (t ++ r) = zlen t + trivia_len MCode r.
Proof.
  intros [c H|body c F N|body H].
  - cbn [app trivia_len]. rewrite (proj2 (space_spec c) H). reflexivity.
  - rewrite <- !app_assoc. change (b "//" ++ body ++ [c] ++ r) with ("/"%char :: "/"%char :: body ++ c :: r). cbn [trivia_len]. change (is_space "/") with false. change (is_ascii_char "/" "/") with true. cbv iota.
    rewrite line_len by auto. rewrite !zl_app, zl_cons. change (zlen (b "//")) with 2. change (zlen (@nil ascii)) with 0. lia.
  - rewrite <- !app_assoc. change (b "/*" ++ body ++ b "*/" ++ r) with ("/"%char :: "*"%char :: body ++ b "*/" ++ r). cbn [trivia_len]. change (is_space "/") with false. change (is_ascii_char "/" "/") with true. change (is_ascii_char "/" "*") with false. change (is_ascii_char "*" "*") with true. cbv iota.
    rewrite block_len by auto. rewrite !zl_app. change (zlen (b "/*")) with 2. change (zlen (b "*/")) with 2. lia.
Qed.
Lemma trivia_all ts r : Forall trivium ts -> trivia_len MCode (concat ts ++ r) = zlen (concat ts) + trivia_len MCode r.
Proof.
  induction 1 as [|t ts T F IH]; cbn [concat]; [change (zlen (@nil ascii)) with 0; cbn [app]; lia|]. rewrite <- app_assoc, trivium_len, IH, zl_app by auto. lia.
Qed.
Lemma text_app x y : text_of (x ++ y) = text_of x ++ text_of y.
Proof. unfold text_of. now rewrite map_app, concat_app. Qed.
Lemma text_cons p x : text_of (p :: x) = shown p ++ text_of x.
Proof. reflexivity. Qed.
Lemma text_trivia ts : text_of (trivia ts) = concat ts.
Proof. unfold text_of, trivia. rewrite map_map. cbn. now rewrite map_id. Qed.
(** The token after trivia. *)
Lemma token_at x ts c r : Forall trivium ts -> is_space c = false -> is_ascii_char "/" c = false ->
  token_range (x ++ concat ts ++ c :: r) (zlen x) = (zlen x + zlen (concat ts), zlen x + zlen (concat ts) + 1).
Proof.
  intros F S D. unfold token_range, skip_trivia. rewrite skipn_zlen, trivia_all by auto. cbn [trivia_len]. rewrite S, D. f_equal; lia.
Qed.

(** ** The text of numbers *)
Lemma integer_spec n : is_decimal_integer n = true <-> integer n.
Proof.
  unfold is_decimal_integer, integer. destruct n as [|c0 r0]; [split; [discriminate|intros [H _]; now destruct H]|]. set (n := c0 :: r0).
  assert (N : n <> []) by discriminate. clearbody n. clear c0 r0.
  assert (IDX : forall k (l : bstr) i c, In (i, c) (combine (seq k (List.length l)) l) <-> exists pre post, l = pre ++ c :: post /\ i = (k + List.length pre)%nat).
  { intros k l. revert k. induction l as [|d l IH]; intros k i c; cbn [List.length seq combine In].
    - split; [intros []|]. intros (pre & post & E & _). destruct pre; discriminate.
    - rewrite IH. split.
      + intros [[= -> ->]|(pre & post & -> & ->)]; [exists [], l; split; [reflexivity|cbn; lia]|exists (d :: pre), post; split; [reflexivity|cbn; lia]].
      + intros ([|e pre] & post & E & ->); injection E as -> ->; [left; f_equal; cbn; lia|right]. exists pre, post. split; [reflexivity|cbn; lia]. }
  destruct (existsb _ n) eqn:X.
  - split; [discriminate|]. intros (_ & F & _). exfalso. apply existsb_exists in X. destruct X as (c & I & C). rewrite Forall_forall in F. apply F in I. unfold digit in I. apply existsb_exists in C. destruct C as (x & XI & E). apply char_spec in E.
    cbn [In] in XI. repeat (destruct XI as [<-|XI]; [match type of E with _ = ?z => let v := eval vm_compute in z in change z with v in E end; lia|]). destruct XI.
  - rewrite forallb_forall. split.
    + intros H. split; [exact N|]. assert (A : forall pre c post, n = pre ++ c :: post -> digit c \/ (code c = 95 /\ pre <> [] /\ post <> [])).
      { intros pre c post E. specialize (H (List.length pre, c)). rewrite IDX in H. cbn [Nat.add] in H. assert (H' := H (ex_intro _ pre (ex_intro _ post (conj E eq_refl)))). revert H'. chars. unfold digit. rewrite !Nat.ltb_lt. intros [D|[[D P] Q]]; [now left|right]. split; [exact D|].
        subst n. rewrite app_length in Q. cbn [List.length] in Q. split; intros ->; cbn in *; lia. }
      split; [apply Forall_forall; intros c I; apply in_split in I; destruct I as (pre & post & E); apply A in E; tauto|]. split; intros r E.
      * destruct (A [] "_"%char r E) as [D|(_ & D & _)]; [unfold digit in D; change (code "_") with 95 in D; lia|now apply D].
      * destruct (A r "_"%char [] E) as [D|(_ & _ & D)]; [unfold digit in D; change (code "_") with 95 in D; lia|now apply D].
    + intros (_ & F & B & E) [i c] I. apply IDX in I. destruct I as (pre & post & EQ & ->). cbn [Nat.add]. chars. rewrite !Nat.ltb_lt. rewrite Forall_forall in F. destruct (F c) as [D|D]; [rewrite EQ; apply in_app_iff; right; now left|left; exact D|].
      assert (c = "_"%char) by (now apply code_inj). subst c. right. split; [split; [exact D|]|].
      * destruct pre; [exfalso; now apply (B post)|cbn; lia].
      * destruct post; [exfalso; now apply (E pre)|]. subst n. rewrite app_length. cbn. lia.
Qed.

Section Fixes.
Variable unicode_part : bstr -> bool.
Notation begins_part := (begins_part unicode_part).
Notation reads := (reads unicode_part).
Notation rewritten := (rewritten unicode_part).
Notation whole := (whole unicode_part).
Notation stops := (stops unicode_part).
Lemma starts_spec s : starts_with_part unicode_part s = true <-> begins_part s.
Proof.
  unfold starts_with_part, DotNotationSpec.begins_part. destruct s as [|c r]; [split; [discriminate|intros (? & ? & ? & _); discriminate]|].
  destruct (Nat.ltb_spec (nat_of_ascii c) 128) as [L|L].
  - rewrite part_spec. split; [intros H; exists c, r; split; [reflexivity|left; split; [unfold code; lia|exact H]]|]. intros (d & q & E & H). injection E as <- <-. destruct H as [[_ H]|[H _]]; [exact H|unfold code in H; lia].
  - split; [intros H; exists c, r; split; [reflexivity|right; split; [unfold code; lia|exact H]]|]. intros (d & q & E & H). injection E as <- <-. destruct H as [[H _]|[_ H]]; [unfold code in H; lia|exact H].
Qed.
(** A character that starts none of the things a piece could go on with. *)
Definition plain (s : bstr) : Prop := exists c r, s = c :: r /\ (In (code c) [9; 10; 11; 12; 13; 32; 47; 91; 93; 63]).
Lemma plain_part s : plain s -> ~ begins_part s.
Proof. intros (c & r & -> & H) (d & q & E & K). injection E as <- <-. unfold name_part, name_start, digit in K. cbn [In] in H. lia. Qed.
Lemma plain_digit s : plain s -> ~ begins_digit s.
Proof. intros (c & r & -> & H) (d & q & E & K). injection E as <- <-. unfold digit in K. cbn [In] in H. lia. Qed.
Lemma plain_dot s : plain s -> ~ begins_dot s.
Proof. intros (c & r & -> & H) (q & E). cbn [app b list_ascii_of_string] in E. injection E as -> _. cbn [In] in H. change (code ".") with 46 in H. lia. Qed.
Lemma plain_trivium t r : trivium t -> plain (t ++ r).
Proof.
  intros [c H|body c F N|body H].
  - exists c, r. split; [reflexivity|]. cbn [In] in *. tauto.
  - exists "/"%char, ("/"%char :: (body ++ [c]) ++ r). split; [reflexivity|]. cbn. tauto.
  - exists "/"%char, ("*"%char :: (body ++ b "*/") ++ r). split; [reflexivity|]. cbn. tauto.
Qed.
Lemma plain_trivia ts r : Forall trivium ts -> plain r -> plain (concat ts ++ r).
Proof. intros F P. destruct F as [|t ts T F]; [exact P|]. cbn [concat]. rewrite <- app_assoc. now apply plain_trivium. Qed.
Lemma plain_open r : plain (b "[" ++ r).
Proof. exists "["%char, r. split; [reflexivity|]. cbn. tauto. Qed.
Lemma plain_q r : plain (b "?." ++ r).
Proof. exists "?"%char, ("."%char :: r). split; [reflexivity|]. cbn. tauto. Qed.
Lemma plain_space r : plain (b " " ++ r).
Proof. exists " "%char, r. split; [reflexivity|]. cbn. tauto. Qed.

Lemma needs_spec x y : needs_space unicode_part (x ++ y) (zlen x) = true <-> begins_part y.
Proof.
  unfold needs_space, skip_trivia. rewrite skipn_zlen. rewrite <- starts_spec. destruct y as [|c r].
  - cbn [trivia_len]. rewrite Z.add_0_r, app_nil_r, Z.leb_refl, orb_true_r. split; discriminate.
  - destruct (Z.eqb_spec (zlen x + trivia_len MCode (c :: r)) (zlen x)) as [E|E]; cbn [negb orb].
    + rewrite E, zl_app, zl_cons. rewrite (proj2 (Z.leb_gt _ _)) by (pose proof (zl_nonneg r); lia). rewrite skipn_zlen. reflexivity.
    + split; [discriminate|]. intros H. exfalso. apply starts_spec in H. revert H. apply plain_part. exists c, r. split; [reflexivity|].
      cbn [trivia_len] in E. destruct (is_space c) eqn:S; [apply space_spec in S; cbn [In] in *; tauto|]. destruct (is_ascii_char "/" c) eqn:D; [apply char_spec in D; change (code "/") with 47 in D; cbn [In]; lia|lia].
Qed.

(** ** Reading *)
Definition gap_of (question : option (list bstr)) (num : option bstr) : list piece :=
  match question, num with None, Some n => if is_decimal_integer n then [Triv (b " ")] else [] | _, _ => [] end.
Definition space_of (s : bstr) : list piece := if starts_with_part unicode_part s then [Triv (b " ")] else [].
Fixpoint rewrite (rest : bstr) (cs : list chunk) : list piece :=
  match cs with
  | [] => []
  | Keep p :: r => p :: rewrite rest r
  | Dot t1 question t2 word name :: r =>
      trivia t1 ++ (if question then [Punct (b "?.")] else []) ++ trivia t2 ++ [Punct (b "["); Lit ([ascii_of_nat 34] ++ name ++ [ascii_of_nat 34]); Punct (b "]")] ++ rewrite rest r
  | Elem t1 question t2 lit t3 name num :: r =>
      trivia t1 ++ gap_of question num ++ [Punct (match question with Some _ => b "?." | None => b "." end); Word name] ++ space_of (text_of (pieces r) ++ rest) ++ rewrite rest r
  end.
Lemma not_true x P : (x = true <-> P) -> x = false -> ~ P.
Proof. intros H E X. apply H in X. congruence. Qed.
Lemma rewrite_ok rest cs : rewritten rest cs (rewrite rest cs).
Proof.
  induction cs as [|[p|t1 question t2 lit t3 name num|t1 question t2 word name] cs IH]; cbn [rewrite].
  - constructor.
  - now constructor.
  - apply re_elem; [exact IH| |].
    + unfold gap_of. destruct question; [left; split; [reflexivity|left; discriminate]|]. destruct num as [n|]; [|left; auto]. destruct (is_decimal_integer n) eqn:E.
      * right. apply integer_spec in E. eauto 6.
      * left. split; [reflexivity|]. right. right. exists n. split; [reflexivity|]. eapply not_true; [apply integer_spec|exact E].
    + unfold space_of. destruct (starts_with_part unicode_part _) eqn:E; [right; split; [reflexivity|now apply starts_spec]|left; split; [reflexivity|]]. eapply not_true; [apply starts_spec|exact E].
  - destruct question; [apply re_dot_q|apply re_dot]; exact IH.
Qed.
Lemma reads_app x y rest : reads (x ++ y) rest <-> reads x (text_of y ++ rest) /\ reads y rest.
Proof.
  induction x as [|p x IH]; [cbn [app]; unfold DotNotationSpec.reads at 2; tauto|]. cbn [app]. change (reads (p :: x ++ y) rest) with (whole p /\ stops p (text_of (x ++ y) ++ rest) /\ reads (x ++ y) rest).
  change (reads (p :: x) (text_of y ++ rest)) with (whole p /\ stops p (text_of x ++ text_of y ++ rest) /\ reads x (text_of y ++ rest)). rewrite IH, text_app, <- app_assoc. tauto.
Qed.
Lemma reads_cons p x rest : reads (p :: x) rest <-> whole p /\ stops p (text_of x ++ rest) /\ reads x rest.
Proof. reflexivity. Qed.
Lemma reads_trivia ts rest : reads (trivia ts) rest <-> Forall trivium ts.
Proof.
  induction ts as [|t ts IH]; cbn [trivia map]; [split; [constructor|intros _; exact I]|]. rewrite reads_cons. fold (trivia ts). rewrite IH. split.
  - intros ((_ & _ & T) & _ & F). now constructor.
  - intros H. inversion H as [|? ? T F]; subst. split; [|split; [exact I|exact F]]. split; [intros E; cbn in E; subst t; inversion T|]. split; [|exact T].
    cbn [shown]. intros x y. split; intros B; exfalso; revert B; apply plain_part, plain_trivium, T.
Qed.
(** What a piece needs of the text after it. *)
Lemma head_digit p x y : shown p <> [] -> begins_digit (shown p ++ x) -> begins_digit (shown p ++ y).
Proof. intros N (c & r & E & D). destruct (shown p) as [|d q]; [now destruct N|]. injection E as -> _. exists c, (q ++ y). auto. Qed.
Lemma head_dot p x y : shown p <> [] -> begins_dot (shown p ++ x) -> begins_dot (shown p ++ y).
Proof. intros N (r & E). destruct (shown p) as [|d q]; [now destruct N|]. injection E as -> _. exists (q ++ y). reflexivity. Qed.
Lemma name_digit n x : is_name n -> ~ begins_digit (n ++ x).
Proof. intros (c & r & -> & S & _) (d & q & E & D). injection E as <- _. unfold name_start, digit in *. lia. Qed.
Lemma name_whole n : is_name n -> whole (Word n).
Proof.
  intros (c & r & -> & S & F). split; [discriminate|]. split; [|exact I]. cbn [shown app]. assert (X : forall q, begins_part (c :: q)). { intros q. exists c, q. split; [reflexivity|]. left. split; [unfold name_start in S; lia|now left]. }
  intros x y. split; intros _; apply X.
Qed.
Lemma plain_whole_punct s : (forall x, plain (s ++ x)) -> whole (Punct s).
Proof. intros H. split; [intros E; cbn in E; subst s; destruct (H []) as (c & r & E & _); discriminate|]. split; [|exact I]. cbn [shown]. intros x y. split; intros B; exfalso; revert B; apply plain_part, H. Qed.
Lemma dot_whole : whole (Punct (b ".")).
Proof. split; [discriminate|]. split; [|exact I]. intros x y. split; intros (c & r & E & B); cbn [shown b list_ascii_of_string app] in E; injection E as <- _; exfalso; change (code ".") with 46 in B; unfold name_part, name_start, digit in B; change (code ".") with 46 in B; lia. Qed.
Lemma space_whole : whole (Triv (b " ")).
Proof. assert (T : trivium (b " ")) by (apply tr_space; cbn; tauto). assert (R : reads (trivia [b " "]) []) by (apply reads_trivia; auto). apply R. Qed.
Lemma quote_whole n : whole (Lit ([ascii_of_nat 34] ++ n ++ [ascii_of_nat 34])).
Proof. split; [discriminate|]. split; [|exact I]. intros x y. split; intros (c & r & E & B); cbn [shown app] in E; injection E as <- _; exfalso; change (code (ascii_of_nat 34)) with 34 in B; unfold name_part, name_start, digit in B; change (code (ascii_of_nat 34)) with 34 in B; lia. Qed.
Lemma dot_digit r : ~ begins_digit (b "." ++ r).
Proof. intros (c & q & E & D). injection E as <- _. unfold digit in D. change (code ".") with 46 in D. lia. Qed.
Lemma dot_part r : ~ begins_part (b "." ++ r).
Proof. intros (c & q & E & D). injection E as <- _. unfold name_part, name_start, digit in D. change (code ".") with 46 in D. lia. Qed.

(** The parts of an access that is read. *)
Lemma elem_reads t1 question t2 lit t3 name num r rest : reads (pieces_of (Elem t1 question t2 lit t3 name num) ++ r) rest ->
  Forall trivium t1 /\ (forall u, question = Some u -> Forall trivium u) /\ Forall trivium t2 /\ Forall trivium t3 /\ reads r rest.
Proof.
  cbn [pieces_of]. intros H. apply reads_app in H. destruct H as [H R]. apply reads_app in H. destruct H as [T1 H]. apply reads_trivia in T1. apply reads_app in H. destruct H as [Q H].
  apply reads_app in H. destruct H as [_ H]. apply reads_app in H. destruct H as [T2 H]. apply reads_trivia in T2. apply reads_app in H. destruct H as [_ H]. apply reads_app in H. destruct H as [T3 H]. apply reads_trivia in T3.
  repeat split; auto. intros u ->. apply reads_cons in Q. destruct Q as (_ & _ & Q). now apply reads_trivia in Q.
Qed.
Lemma dot_reads t1 question t2 word name r rest : reads (pieces_of (Dot t1 question t2 word name) ++ r) rest ->
  Forall trivium t1 /\ Forall trivium t2 /\ shown (Word word) <> [] /\ reads r rest.
Proof.
  cbn [pieces_of]. intros H. apply reads_app in H. destruct H as [H R]. apply reads_app in H. destruct H as [T1 H]. apply reads_trivia in T1. apply reads_app in H. destruct H as [_ H].
  apply reads_app in H. destruct H as [T2 H]. apply reads_trivia in T2. apply reads_cons in H. destruct H as ((W & _) & _). auto.
Qed.
Lemma pieces_cons c cs : pieces (c :: cs) = pieces_of c ++ pieces cs.
Proof. reflexivity. Qed.
Lemma text3 ts r rest : text_of (trivia ts ++ r) ++ rest = concat ts ++ text_of r ++ rest.
Proof. now rewrite text_app, text_trivia, <- app_assoc. Qed.
Lemma text4 p r rest : text_of (p :: r) ++ rest = shown p ++ text_of r ++ rest.
Proof. now rewrite text_cons, <- app_assoc. Qed.
Lemma text5 x r rest : text_of (x ++ r) ++ rest = text_of x ++ text_of r ++ rest.
Proof. now rewrite text_app, <- app_assoc. Qed.
(** How a rewritten text begins. *)
Lemma trivia_first ts x : Forall trivium ts -> ts = [] \/ plain (concat ts ++ x).
Proof. intros [|t l T F]; [now left|right]. cbn [concat]. rewrite <- app_assoc. now apply plain_trivium. Qed.
Lemma begins rest cs out : rewritten rest cs out -> reads (pieces cs) rest ->
  let new := text_of out ++ rest in let old := text_of (pieces cs) ++ rest in
  (begins_part new -> begins_part old) /\ (begins_digit new -> begins_digit old) /\
  (begins_dot new -> begins_dot old \/ exists t2 lit t3 name num cs', cs = Elem [] None t2 lit t3 name num :: cs' /\ forall n, num = Some n -> ~ integer n).
Proof.
  intros W R new old. assert (PL : plain new -> (begins_part new -> begins_part old) /\ (begins_digit new -> begins_digit old) /\ (begins_dot new -> begins_dot old \/ exists t2 lit t3 name num cs', cs = Elem [] None t2 lit t3 name num :: cs' /\ forall n, num = Some n -> ~ integer n)).
  { intros P. repeat split; intros H; exfalso; revert H; [apply plain_part|apply plain_digit|apply plain_dot]; exact P. }
  subst new old. destruct W as [|p cs out W|t1 t2 word name cs out W|t1 t2 word name cs out W|t1 question t2 lit t3 name num gap space cs out W G S].
  - cbn. tauto.
  - rewrite pieces_cons in *. cbn [pieces_of app] in *. apply reads_cons in R. destruct R as ((NE & WH & _) & _ & _). rewrite !text4. split; [apply WH|]. split; [intros H; eapply head_digit; eauto|]. intros H. left. eapply head_dot; eauto.
  - rewrite pieces_cons in R. apply dot_reads in R. destruct R as (T1 & T2 & _ & _). apply PL. rewrite !text3. apply plain_trivia; [exact T1|]. apply plain_trivia; [exact T2|]. cbn [app]. rewrite text4. apply plain_open.
  - rewrite pieces_cons in R. apply dot_reads in R. destruct R as (T1 & T2 & _ & _). apply PL. rewrite !text3. apply plain_trivia; [exact T1|]. cbn [app]. rewrite text4. apply plain_q.
  - rewrite pieces_cons in R. apply elem_reads in R. destruct R as (T1 & _). destruct (trivia_first t1 (text_of (gap ++ [Punct match question with Some _ => b "?." | None => b "." end; Word name] ++ space ++ out) ++ rest) T1) as [-> | P]; [|apply PL; rewrite text3; exact P].
    cbn [trivia map app] in *. destruct G as [[-> G]|(-> & -> & n & -> & N)]; [|apply PL; cbn [app]; rewrite text4; apply plain_space]. cbn [app] in *. rewrite text4 in *. destruct question as [u|]; [apply PL; apply plain_q|]. cbn [shown].
    split; [intros H; destruct (dot_part _ H)|]. split; [intros H; destruct (dot_digit _ H)|]. intros _. right. exists t2, lit, t3, name, num, cs. split; [reflexivity|]. intros n ->. destruct G as [G|[G|(m & G & N)]]; [congruence|discriminate|]. injection G as <-. exact N.
Qed.
Lemma stops_keep p rest cs out : rewritten rest cs out -> reads (pieces cs) rest -> numbered (Some p) cs -> stops p (text_of (pieces cs) ++ rest) -> stops p (text_of out ++ rest).
Proof.
  intros W R N. destruct (begins rest cs out W R) as (P & D & T). destruct p as [s|s|s|s|s]; cbn [DotNotationSpec.stops]; auto.
  - intros (S1 & S2). split; [auto|]. intros DC B. destruct (T B) as [B'|(t2 & lit & t3 & name & num & cs' & -> & NI)]; [now apply S2|]. cbn [numbered] in N. destruct N as (_ & N & _). destruct (N s eq_refl DC) as (n & E & I). now apply (NI n E).
Qed.
Lemma rewritten_reads rest cs out : rewritten rest cs out -> forall before, reads (pieces cs) rest -> numbered before cs -> reads out rest.
Proof.
  induction 1 as [|p cs out W IH|t1 t2 word name cs out W IH|t1 t2 word name cs out W IH|t1 question t2 lit t3 name num gap space cs out W IH G S]; intros before R N; rewrite ?pieces_cons in R.
  - exact I.
  - cbn [pieces_of app] in R. apply reads_cons in R. destruct R as (WH & ST & R). cbn [numbered] in N. apply reads_cons. split; [exact WH|]. split; [eapply stops_keep; eauto|eauto].
  - pose proof (dot_reads _ _ _ _ _ _ _ R) as (T1 & T2 & _ & R'). cbn [numbered] in N. apply reads_app. split; [now apply reads_trivia|]. apply reads_app. split; [now apply reads_trivia|]. cbn [app].
    apply reads_cons. split; [apply plain_whole_punct, plain_open|]. split; [intros [H|H]; discriminate|]. apply reads_cons. split; [apply quote_whole|]. split; [exact I|]. apply reads_cons. split; [apply plain_whole_punct; intros x; exists "]"%char, x; split; [reflexivity|cbn; tauto]|]. split; [intros [H|H]; discriminate|]. eauto.
  - pose proof (dot_reads _ _ _ _ _ _ _ R) as (T1 & T2 & _ & R'). cbn [numbered] in N. apply reads_app. split; [now apply reads_trivia|]. apply reads_app. split; [|apply reads_app; split; [now apply reads_trivia|cbn [app]]].
    + apply reads_cons. split; [apply plain_whole_punct, plain_q|]. split; [|exact I]. intros _. cbn [text_of map concat app]. apply plain_digit. rewrite !text3. apply plain_trivia; [exact T2|]. cbn [app]. rewrite text4. apply plain_open.
    + apply reads_cons. split; [apply plain_whole_punct, plain_open|]. split; [intros [H|H]; discriminate|]. apply reads_cons. split; [apply quote_whole|]. split; [exact I|]. apply reads_cons. split; [apply plain_whole_punct; intros x; exists "]"%char, x; split; [reflexivity|cbn; tauto]|]. split; [intros [H|H]; discriminate|]. eauto.
  - pose proof (elem_reads _ _ _ _ _ _ _ _ _ R) as (T1 & _ & _ & _ & R'). cbn [numbered] in N. destruct N as (NM & _ & N). apply reads_app. split; [now apply reads_trivia|]. apply reads_app. split.
    { destruct G as [[-> _]|(-> & _)]; [exact I|]. apply reads_cons. split; [apply space_whole|]. split; exact I. }
    cbn [app]. apply reads_cons. split; [destruct question; [apply plain_whole_punct, plain_q|apply dot_whole]|]. split; [intros _; rewrite text4; cbn [shown]; now apply name_digit|].
    apply reads_cons. split; [now apply name_whole|]. destruct (begins rest cs out W R') as (P & _). destruct S as [[-> S]|[-> S]]; cbn [app].
    + split; [cbn; auto|eauto].
    + split; [rewrite text4; apply plain_part, plain_space|]. apply reads_cons. split; [apply space_whole|]. split; [exact I|eauto].
Qed.

(** ** The fixes of one access *)
Definition before_key (question : option (list bstr)) (t2 : list bstr) (lit : bstr) : bstr :=
  match question with Some u => b "?." ++ concat u | None => [] end ++ b "[" ++ concat t2 ++ lit.
Lemma elem_text t1 question t2 lit t3 name num : text_of (pieces_of (Elem t1 question t2 lit t3 name num)) = concat t1 ++ before_key question t2 lit ++ concat t3 ++ b "]".
Proof.
  cbn [pieces_of]. unfold before_key. destruct question as [u|]; rewrite !text_app, !text_trivia; cbn [app text_of map shown concat]; rewrite ?app_nil_r, <- ?app_assoc; cbn [app]; rewrite <- ?app_assoc; [|reflexivity].
  change (concat (map shown (trivia u))) with (text_of (trivia u)). rewrite text_trivia. reflexivity.
Qed.
Definition end_fix (y : bstr) (e : Z) : list (fix_ ascii) := if starts_with_part unicode_part y then [mkFix (b " ") e e] else [].
Lemma elem_fixes x y t1 question t2 lit t3 name num : Forall trivium t1 -> Forall trivium t3 ->
  let chunk := text_of (pieces_of (Elem t1 question t2 lit t3 name num)) in let e := zlen x + zlen chunk in let p := zlen x + zlen (concat t1) in
  dot_fixes unicode_part (x ++ chunk ++ y) (Access (zlen x) (match question with Some _ => Some (zlen x + zlen (concat t1) + 2) | None => None end) (e - 1 - zlen (concat t3)) e num) name =
  match question with None => [mkFix (text_of (gap_of None num) ++ b ".") p p; mkFix name p e] | Some _ => [mkFix name (p + 2) e] end ++ end_fix y e.
Proof.
  intros T1 T3 chunk e p. assert (CH : chunk = concat t1 ++ before_key question t2 lit ++ concat t3 ++ b "]") by apply elem_text.
  assert (RT : snd (token_range (x ++ chunk ++ y) (e - 1 - zlen (concat t3))) = e).
  { pose proof (token_at (x ++ concat t1 ++ before_key question t2 lit) t3 "]" y T3 eq_refl eq_refl) as H. rewrite !zl_app in H. unfold e. rewrite CH, !zl_app. change (zlen (b "]")) with 1.
    replace (x ++ (concat t1 ++ before_key question t2 lit ++ concat t3 ++ b "]") ++ y) with ((x ++ concat t1 ++ before_key question t2 lit) ++ concat t3 ++ "]"%char :: y) by (rewrite <- !app_assoc; reflexivity).
    match goal with |- snd (token_range _ ?z) = _ => replace z with (zlen x + (zlen (concat t1) + zlen (before_key question t2 lit))) by lia end. rewrite H. cbn [snd]. lia. }
  assert (SP : (if needs_space unicode_part (x ++ chunk ++ y) e then [mkFix (b " ") e e] else []) = end_fix y e).
  { unfold end_fix, e. rewrite <- zl_app. rewrite app_assoc. pose proof (needs_spec (x ++ chunk) y) as H. rewrite <- starts_spec in H. destruct (needs_space _ _ _), (starts_with_part _ _); intuition congruence. }
  unfold dot_fixes. cbn [object_end question_end key_end node_end number]. rewrite SP, RT. destruct question as [u|]; [reflexivity|].
  assert (LT : fst (token_range (x ++ chunk ++ y) (zlen x)) = p).
  { rewrite CH. unfold before_key. rewrite <- !app_assoc. cbn [app b list_ascii_of_string]. rewrite token_at by auto. reflexivity. }
  rewrite LT. unfold gap_of. destruct num as [n|]; [|reflexivity]. destruct (is_decimal_integer n); reflexivity.
Qed.
Lemma dot_text t1 question t2 word name : text_of (pieces_of (Dot t1 question t2 word name)) = concat t1 ++ (if question then b "?." else b ".") ++ concat t2 ++ word.
Proof. cbn [pieces_of]. rewrite !text_app, !text_trivia. cbn [text_of map shown concat]. now rewrite !app_nil_r. Qed.
Lemma bracket_fixes_eq x y t1 question t2 word name : Forall trivium t1 ->
  let chunk := text_of (pieces_of (Dot t1 question t2 word name)) in let e := zlen x + zlen chunk in let p := zlen x + zlen (concat t1) in
  bracket_fixes (x ++ chunk ++ y) (zlen x) question false (e - zlen word) e name =
  (if question then [] else [mkFix [] p (p + 1)]) ++ [mkFix (b "[""" ++ name ++ b """]") (e - zlen word) e].
Proof.
  intros T1 chunk e p. unfold bracket_fixes. rewrite andb_false_r. destruct question; [reflexivity|]. unfold chunk. rewrite dot_text, <- !app_assoc. cbn [app b list_ascii_of_string]. rewrite token_at by auto. reflexivity.
Qed.

(** ** All fixes *)
Notation messages := (messages unicode_part).
Definition keys (ms : list (msg ascii)) : list (Z * Z) := map fix_key (concat (map mfixes ms)).
Lemma pos_cons c cs text at_ id : messages text at_ id (c :: cs) =
  let next := at_ + zlen (text_of (pieces_of c)) in
  match c with
  | Keep _ => messages text next id cs
  | Elem t1 question t2 lit t3 name num => mkMsg id (dot_fixes unicode_part text (Access at_ (match question with Some _ => Some (at_ + zlen (concat t1) + 2) | None => None end) (next - 1 - zlen (concat t3)) next num) name) :: messages text next (S id) cs
  | Dot t1 question t2 word name => mkMsg id (bracket_fixes text at_ question false (next - zlen word) next name) :: messages text next (S id) cs
  end.
Proof. reflexivity. Qed.
Lemma rw_keeps keep p rest es out : rewrites (p + zlen keep) rest es out -> rewrites p (keep ++ rest) es (keep ++ out : bstr).
Proof. apply rewrites_keep_app. Qed.
Lemma rw_put del p rest text q es out : q = p + zlen del -> rewrites q rest es out -> rewrites p (del ++ rest) (mkFix text p q :: es) (text ++ out : bstr).
Proof. intros -> R. apply (rw_edit p del rest (mkFix text p (p + zlen del)) es out eq_refl eq_refl R). Qed.
Lemma end_rewrites y e es out : rewrites e y es out -> rewrites e y (end_fix y e ++ es) (text_of (space_of y) ++ out).
Proof. intros R. unfold end_fix, space_of. destruct (starts_with_part unicode_part y); [|exact R]. cbn [app text_of map concat shown]. change y with ([] ++ y) at 1. rewrite app_nil_r. apply rw_put; [change (zlen (@nil ascii)) with 0; lia|exact R]. Qed.
Definition later (at_ : Z) (part : bool) (f : fix_ ascii) : Prop := at_ <= fpos f /\ (part = true -> at_ < fpos f).
Lemma all_fixes_ok rest : forall cs x id text, text = x ++ text_of (pieces cs) ++ rest -> reads (pieces cs) rest ->
  let ms := messages text (zlen x) id cs in let fs := concat (map mfixes ms) in
  Forall (fun m => mfixes m <> []) ms /\ disjoint_from (zlen x) (zlen text) fs /\ NoDup (map fix_key fs) /\
  Forall (later (zlen x) (starts_with_part unicode_part (text_of (pieces cs) ++ rest))) fs /\
  rewrites (zlen x) (text_of (pieces cs) ++ rest) fs (text_of (rewrite rest cs) ++ rest).
Proof.
  induction cs as [|c cs IH]; intros x id text T R ms fs.
  - subst ms fs. cbn [DotNotationSpec.messages map concat disjoint_from]. split; [constructor|]. split; [rewrite T, zl_app; pose proof (zl_nonneg (text_of (pieces []) ++ rest)); lia|]. split; [constructor|]. split; [constructor|]. cbn. constructor.
  - subst ms fs. rewrite pos_cons. set (ch := text_of (pieces_of c)). rewrite pieces_cons in T, R. rewrite text5 in T. fold ch in T.
    assert (R' : reads (pieces cs) rest) by (apply reads_app in R; apply R).
    specialize (IH (x ++ ch)). assert (N : zlen x + zlen ch = zlen (x ++ ch)) by now rewrite zl_app. cbv zeta. rewrite pieces_cons, text5. fold ch.
    set (y := text_of (pieces cs) ++ rest) in *. assert (TX : text = (x ++ ch) ++ y) by now rewrite T, <- app_assoc.
    pose proof (zl_nonneg y) as Y0. assert (ZT : zlen text = zlen x + zlen ch + zlen y) by (rewrite TX, !zl_app; lia).
    destruct c as [p|t1 question t2 lit t3 name num|t1 question t2 word name].
    + rewrite N. destruct (IH id text TX R') as (A & D & ND & L & RW). cbn [pieces_of app] in R. apply reads_cons in R. destruct R as ((NE & WH & _) & _ & _).
      assert (CE : ch = shown p) by (unfold ch; cbn [pieces_of text_of map concat]; apply app_nil_r). assert (C1 : 1 <= zlen ch) by (rewrite CE; destruct (shown p) as [|c0 s0]; [now destruct NE|rewrite zl_cons; pose proof (zl_nonneg s0); lia]).
      split; [exact A|]. split; [|split; [exact ND|split]].
      * destruct (concat (map mfixes (messages text (zlen (x ++ ch)) id cs))) as [|f fs]; cbn [disjoint_from] in *; [lia|]. destruct D as (D1 & D2). split; [lia|exact D2].
      * eapply Forall_impl; [|exact L]. intros f [F1 F2]. red. split; [lia|intros _; lia].
      * cbn [rewrite]. rewrite text4. rewrite <- CE. apply rw_keeps. rewrite N. exact RW.
    + pose proof (elem_reads _ _ _ _ _ _ _ _ _ R) as (T1 & TU & _ & T3 & _). assert (EQ := elem_fixes x y t1 question t2 lit t3 name num T1 T3). cbv zeta in EQ. fold ch in EQ. rewrite <- T in EQ. rewrite EQ. clear EQ.
      rewrite N. destruct (IH (S id) text TX R') as (A & D & ND & L & RW). rewrite <- N in *. cbn [map mfixes concat]. set (e := zlen x + zlen ch) in *. set (p := zlen x + zlen (concat t1)) in *. set (fs := concat (map mfixes (messages text e (S id) cs))) in *.
      assert (CH : ch = concat t1 ++ before_key question t2 lit ++ concat t3 ++ b "]") by apply elem_text.
      assert (BK : zlen (before_key question t2 lit) >= (match question with Some _ => 2 | None => 0 end) + 1). { unfold before_key. pose proof (zl_nonneg (concat t2)). pose proof (zl_nonneg lit). destruct question as [u|]; [pose proof (zl_nonneg (concat u))|]; rewrite !zl_app; change (zlen (b "[")) with 1; [change (zlen (b "?.")) with 2|change (zlen (@nil ascii)) with 0]; lia. }
      assert (PE : p + (match question with Some _ => 2 | None => 0 end) + 2 <= e). { unfold p, e. rewrite CH, !zl_app. change (zlen (b "]")) with 1. pose proof (zl_nonneg (concat t3)). lia. }
      pose proof (zl_nonneg x) as X0. pose proof (zl_nonneg (concat t1)) as X1.
      assert (FIRST : forall r, ~ begins_part (ch ++ r)). { intros r. apply plain_part. rewrite CH, <- app_assoc. apply plain_trivia; [exact T1|]. unfold before_key. destruct question; rewrite <- ?app_assoc; [apply plain_q|apply plain_open]. }
      assert (SF : starts_with_part unicode_part (ch ++ y) = false) by (destruct (starts_with_part unicode_part (ch ++ y)) eqn:E; [apply starts_spec in E; destruct (FIRST _ E)|reflexivity]).
      assert (EF : end_fix y e = [] \/ end_fix y e = [mkFix (b " ") e e] /\ Forall (fun f => e < fpos f) fs). { unfold end_fix. destruct (starts_with_part unicode_part y) eqn:E; [right; split; [reflexivity|]|now left]. eapply Forall_impl; [|exact L]. intros f [_ F]. now apply F. }
      assert (DE : disjoint_from e (zlen text) (end_fix y e ++ fs)). { destruct EF as [-> |[-> F]]; [exact D|]. cbn [app disjoint_from fpos fend]. split; [lia|]. split; [lia|exact D]. }
      assert (GE : Forall (fun f => e <= fpos f) (end_fix y e ++ fs)). { apply Forall_app. split; [destruct EF as [-> |[-> _]]; [constructor|repeat constructor; cbn; lia]|]. eapply Forall_impl; [|exact L]. intros f [F _]. exact F. }
      assert (NE : NoDup (map fix_key (end_fix y e ++ fs))). { destruct EF as [-> |[-> F]]; [exact ND|]. cbn [app map]. constructor; [|exact ND]. intros I. apply in_map_iff in I. destruct I as (f & K & I). rewrite Forall_forall in F. apply F in I. unfold fix_key in K. cbn in K. injection K as K _. lia. }
      assert (RE : rewrites e y (end_fix y e ++ fs) (text_of (space_of y) ++ text_of (rewrite rest cs) ++ rest)) by (apply end_rewrites; exact RW).
      assert (NI : forall k, fst k < e -> ~ In k (map fix_key (end_fix y e ++ fs))). { intros k K I. apply in_map_iff in I. destruct I as (f & <- & I). rewrite Forall_forall in GE. apply GE in I. cbn in K. lia. }
      assert (LT : forall f, zlen x <= fpos f -> later (zlen x) (starts_with_part unicode_part (ch ++ y)) f) by (intros f F; red; rewrite SF; split; [exact F|discriminate]).
      assert (FS : Forall (later (zlen x) (starts_with_part unicode_part (ch ++ y))) (end_fix y e ++ fs)) by (eapply Forall_impl; [|exact GE]; intros f F; apply LT; cbv beta in F; unfold e in F; pose proof (zl_nonneg ch); lia).
      cbn [rewrite]. fold y. rewrite text3. rewrite text5. destruct question as [u|]; cbn [app].
      * split; [constructor; [discriminate|exact A]|]. cbn [disjoint_from fpos fend]. split; [split; [lia|]; split; [lia|exact DE]|].
        split; [cbn [map]; constructor; [apply NI; cbn; lia|exact NE]|]. split; [constructor; [apply LT; cbn [fpos]; lia|exact FS]|].
        rewrite CH, <- !app_assoc. apply rw_keeps. fold p. unfold gap_of. change (text_of []) with (@nil ascii). cbn [app]. rewrite !text4. cbn [shown]. unfold before_key. rewrite <- !app_assoc. apply rw_keeps. change (zlen (b "?.")) with 2.
        rewrite text5. rewrite !app_assoc. rewrite <- (app_assoc name). rewrite <- (app_assoc name). rewrite <- (app_assoc (text_of (space_of y))). apply rw_put; [|exact RE].
        unfold e, p. rewrite CH, !zl_app. unfold before_key. rewrite !zl_app. change (zlen (b "?.")) with 2. lia.
      * split; [constructor; [discriminate|exact A]|]. cbn [disjoint_from fpos fend]. split; [split; [lia|]; split; [lia|]; split; [lia|]; split; [lia|exact DE]|].
        split; [cbn [map]; constructor; [intros [K|K]; [unfold fix_key in K; cbn in K; injection K as K; lia|revert K; apply NI; cbn; lia]|constructor; [apply NI; cbn; lia|exact NE]]|].
        split; [constructor; [apply LT; cbn [fpos]; lia|]; constructor; [apply LT; cbn [fpos]; lia|exact FS]|].
        rewrite CH, <- !app_assoc. apply rw_keeps. fold p. rewrite !text4. cbn [shown].
        replace (text_of (gap_of None num) ++ b "." ++ name ++ text_of (space_of y ++ rewrite rest cs) ++ rest) with ((text_of (gap_of None num) ++ b ".") ++ name ++ text_of (space_of y) ++ text_of (rewrite rest cs) ++ rest) by (rewrite text5, <- !app_assoc; reflexivity).
        change (before_key None t2 lit ++ concat t3 ++ b "]" ++ y) with ([] ++ before_key None t2 lit ++ concat t3 ++ b "]" ++ y). apply rw_put; [change (zlen (@nil ascii)) with 0; lia|]. rewrite !app_assoc. rewrite <- (app_assoc name). rewrite <- (app_assoc name). rewrite <- (app_assoc (text_of (space_of y))). apply rw_put; [|exact RE].
        unfold e, p. rewrite CH, !zl_app. lia.
    + pose proof (dot_reads _ _ _ _ _ _ _ R) as (T1 & T2 & WN & _). cbn [shown] in WN. assert (EQ := bracket_fixes_eq x y t1 question t2 word name T1). cbv zeta in EQ. fold ch in EQ. rewrite <- T in EQ. rewrite EQ. clear EQ.
      rewrite N. destruct (IH (S id) text TX R') as (A & D & ND & L & RW). rewrite <- N in *. cbn [map mfixes concat]. set (e := zlen x + zlen ch) in *. set (p := zlen x + zlen (concat t1)) in *. set (fs := concat (map mfixes (messages text e (S id) cs))) in *.
      assert (CH : ch = concat t1 ++ (if question then b "?." else b ".") ++ concat t2 ++ word) by apply dot_text.
      assert (W1 : 1 <= zlen word) by (destruct word; [now destruct WN|rewrite zl_cons; pose proof (zl_nonneg word); lia]).
      pose proof (zl_nonneg x) as X0. pose proof (zl_nonneg (concat t1)) as X1. pose proof (zl_nonneg (concat t2)) as X2.
      assert (EE : e = p + (if question then 2 else 1) + zlen (concat t2) + zlen word) by (unfold e, p; rewrite CH, !zl_app; destruct question; [change (zlen (b "?.")) with 2|change (zlen (b ".")) with 1]; lia).
      assert (SF : starts_with_part unicode_part (ch ++ y) = false). { destruct (starts_with_part unicode_part (ch ++ y)) eqn:E; [|reflexivity]. apply starts_spec in E. exfalso. revert E. rewrite CH, <- !app_assoc. destruct (trivia_first t1 ((if question then b "?." else b ".") ++ concat t2 ++ word ++ y) T1) as [-> |P]; [cbn [concat app]; destruct question; [apply plain_part, plain_q|apply dot_part]|now apply plain_part]. }
      assert (GE : Forall (fun f => e <= fpos f) fs) by (eapply Forall_impl; [|exact L]; intros f [F _]; exact F).
      assert (NI : forall k, fst k < e -> ~ In k (map fix_key fs)). { intros k K I. apply in_map_iff in I. destruct I as (f & <- & I). rewrite Forall_forall in GE. apply GE in I. cbn in K. lia. }
      assert (LT : forall f, zlen x <= fpos f -> later (zlen x) (starts_with_part unicode_part (ch ++ y)) f) by (intros f F; red; rewrite SF; split; [exact F|discriminate]).
      assert (FS : Forall (later (zlen x) (starts_with_part unicode_part (ch ++ y))) fs) by (eapply Forall_impl; [|exact GE]; intros f F; apply LT; unfold e in F; pose proof (zl_nonneg ch); lia).
      set (q := b "[""" ++ name ++ b """]"). set (tail := [Punct (b "["); Lit ([ascii_of_nat 34] ++ name ++ [ascii_of_nat 34]); Punct (b "]")] ++ rewrite rest cs). assert (NQ : text_of tail ++ rest = q ++ text_of (rewrite rest cs) ++ rest).
      { unfold tail. rewrite text5. cbn [text_of map shown concat]. unfold q. rewrite app_nil_r, <- !app_assoc. reflexivity. }
      assert (LAST : rewrites (e - zlen word) (word ++ y) (mkFix q (e - zlen word) e :: fs) (q ++ text_of (rewrite rest cs) ++ rest)) by (apply rw_put; [lia|exact RW]).
      cbn [rewrite]. fold tail. rewrite text3. destruct question; cbn [app].
      * split; [constructor; [discriminate|exact A]|]. cbn [disjoint_from fpos fend map]. split; [split; [lia|]; split; [lia|exact D]|]. split; [constructor; [apply NI; cbn; lia|exact ND]|].
        split; [constructor; [apply LT; cbn; lia|exact FS]|]. rewrite CH, <- !app_assoc. apply rw_keeps. fold p. rewrite text4. cbn [shown]. apply rw_keeps. change (zlen (b "?.")) with 2. rewrite text3. apply rw_keeps. rewrite NQ.
        replace (p + 2 + zlen (concat t2)) with (e - zlen word) by lia. exact LAST.
      * split; [constructor; [discriminate|exact A]|]. cbn [disjoint_from fpos fend map]. split; [split; [lia|]; split; [lia|]; split; [lia|]; split; [lia|exact D]|].
        split; [constructor; [intros [K|K]; [unfold fix_key in K; cbn in K; injection K as K; lia|revert K; apply NI; cbn; lia]|constructor; [apply NI; cbn; lia|exact ND]]|].
        split; [constructor; [apply LT; cbn; lia|constructor; [apply LT; cbn; lia|exact FS]]|]. rewrite CH, <- !app_assoc. apply rw_keeps. fold p. rewrite text3.
        change (concat t2 ++ text_of tail ++ rest) with ([] ++ concat t2 ++ text_of tail ++ rest).
        apply rw_put; [reflexivity|]. apply rw_keeps. rewrite NQ. replace (p + 1 + zlen (concat t2)) with (e - zlen word) by lia. exact LAST.
Qed.
Theorem applied (sf : list (fix_ ascii) -> list (fix_ ascii)) (sm : list (msg ascii) -> list (msg ascii)) rest cs ms : correct_sort cmp_fix sf -> correct_sort cmp_msg sm ->
  let text := text_of (pieces cs) ++ rest in reads (pieces cs) rest -> messages text 0 0 cs <> [] -> Permutation (messages text 0 0 cs) ms ->
  apply_rule_fixes sf sm text ms = Ok (text_of (rewrite rest cs) ++ rest, [], true).
Proof.
  intros C CM text R NE P. destruct (all_fixes_ok rest cs [] 0%nat text eq_refl R) as (A & D & ND & _ & RW). change (zlen (@nil ascii)) with 0 in *.
  apply (many sf sm text _ (messages text 0 0 cs) (map mfixes (messages text 0 0 cs))); auto.
  - generalize (messages text 0 0 cs) as l. induction l; cbn; constructor; auto.
  - apply Forall_map. exact A.
Qed.
End Fixes.
