(** C40, C44: the clauses that switch-exhaustiveness-check suggests. *)
From Coq Require Import String Ascii Bool List ZArith Lia.
From Verif Require Import Base Types Switch Utf8 Quote JsText JsTextProofs Utf8Proofs PropsQuote.
Import ListNotations.
Open Scope Z_scope.

(** ** Where they are put *)

(** The text of a switch: what precedes the block, each clause with what precedes it, what is left
    before the closing brace, and what follows the block. *)
Record piece := Piece { gap : bstr; text : bstr; type : option ty }.
Definition pieces (ps : list piece) : bstr := flat_map (fun p => gap p ++ text p) ps.
Definition file (pre : bstr) (ps : list piece) (closing post : bstr) : bstr := pre ++ b "{" ++ pieces ps ++ closing ++ b "}" ++ post.
(** The positions the parser gives the clauses, the first one looked for from [pos] on. *)
Fixpoint parsed (pos : Z) (ps : list piece) : list clause :=
  match ps with
  | [] => []
  | p :: r => let start := pos + zlen (gap p) in
              let fin := start + zlen (text p) in
              Clause start fin (type p) :: parsed fin r
  end.
Definition splice (src : bstr) (e : edit) : bstr := firstn (Z.to_nat (e_pos e)) src ++ e_text e ++ skipn (Z.to_nat (e_end e)) src.
Definition is_blank (s : bstr) : Prop := Forall (fun c => c = " "%char \/ c = zb 10) s.
(** New clauses with blank text before each. *)
Inductive added : list bstr -> list piece -> Prop :=
| ad_nil : added [] []
| ad_cons x l g t ps : is_blank g -> added l ps -> added (x :: l) (Piece g x t :: ps).

Lemma pieces_app a c : pieces (a ++ c) = pieces a ++ pieces c.
Proof. apply flat_map_app. Qed.
Lemma zlen_app {A} (a c : list A) : zlen (a ++ c) = zlen a + zlen c.
Proof. unfold zlen. rewrite app_length. lia. Qed.
Lemma zlen_pos {A} (a : list A) : 0 <= zlen a.
Proof. unfold zlen. lia. Qed.
Lemma parsed_app pos a : forall c, parsed pos (a ++ c) = parsed pos a ++ parsed (pos + zlen (pieces a)) c.
Proof.
  revert pos. induction a as [|p a IH]; intros pos c; cbn [parsed app].
  - unfold pieces. cbn. now rewrite Z.add_0_r.
  - rewrite IH. change (pieces (p :: a)) with ((gap p ++ text p) ++ pieces a). rewrite !zlen_app.
    replace (pos + (zlen (gap p) + zlen (text p) + zlen (pieces a))) with (pos + zlen (gap p) + zlen (text p) + zlen (pieces a)) by lia. reflexivity.
Qed.
Lemma firstn_at {A} (x y : list A) n : n = zlen x -> firstn (Z.to_nat n) (x ++ y) = x.
Proof. intros ->. unfold zlen. rewrite Nat2Z.id, firstn_app, Nat.sub_diag, firstn_all. cbn. apply app_nil_r. Qed.
Lemma skipn_at {A} (x y : list A) n : n = zlen x -> skipn (Z.to_nat n) (x ++ y) = y.
Proof. intros ->. unfold zlen. rewrite Nat2Z.id, skipn_app, Nat.sub_diag, skipn_all. reflexivity. Qed.
Lemma splice_at x y z e : e_pos e = zlen x -> e_end e = zlen (x ++ y) -> splice (x ++ y ++ z) e = x ++ e_text e ++ z.
Proof. intros P E. unfold splice. rewrite (firstn_at x) by auto. f_equal. f_equal. rewrite app_assoc. now apply skipn_at. Qed.

Lemma join_pieces ind l t : is_blank ind -> l <> [] -> exists ps, added l ps /\ pieces ps = nl ++ join_lines (map (app ind) l) /\ Forall (fun p => type p = t) ps.
Proof.
  intros B. induction l as [|x l IH]; intros NE; [congruence|]. assert (BN : is_blank (nl ++ ind)) by (constructor; auto).
  destruct l as [|y l].
  - exists [Piece (nl ++ ind) x t]. split; [constructor; [auto|constructor]|]. split; [|repeat constructor].
    unfold pieces. cbn [flat_map gap text map join_lines]. now rewrite app_nil_r, <- app_assoc.
  - destruct IH as (ps & A & E & T); [discriminate|]. exists (Piece (nl ++ ind) x t :: ps). split; [constructor; auto|]. split; [|constructor; auto].
    unfold pieces in *. cbn [flat_map gap text]. rewrite E.
    change (join_lines (map (app ind) (x :: y :: l))) with ((ind ++ x) ++ nl ++ join_lines (map (app ind) (y :: l))). now rewrite <- !app_assoc.
Qed.
Lemma indent_blank column pos : is_blank (indent column pos).
Proof. unfold indent. destruct (column pos <=? 0); [constructor|]. apply Forall_forall. intros c I. apply repeat_spec in I. auto. Qed.

(** No default clause: the new clauses follow the old ones. *)
Theorem C40_clauses_appended :
  forall column node pre ps closing post lines t,
    ps <> [] -> lines <> [] ->
    let cases := parsed (zlen pre + 1) ps in
    let e := apply_missing column node (zlen pre) (zlen pre + 1 + zlen (pieces ps) + zlen closing + 1) cases None lines in
    exists new, added lines new /\ Forall (fun p => type p = t) new /\ splice (file pre ps closing post) e = file pre (ps ++ new) closing post.
Proof.
  intros column node pre ps closing post lines t NE NL cases e.
  destruct (exists_last NE) as (ps' & p & EP).
  assert (EC : cases = parsed (zlen pre + 1) ps' ++ parsed (zlen pre + 1 + zlen (pieces ps')) [p]) by (subst cases; rewrite EP; apply parsed_app).
  cbn [parsed] in EC. set (c := Clause _ _ _) in EC.
  assert (LC : exists c0 r, cases = c0 :: r /\ last r c0 = c).
  { rewrite EC. destruct (parsed (zlen pre + 1) ps') as [|c0 r]; [exists c, []; auto|]. exists c0, (r ++ [c]). split; [reflexivity|apply last_last]. }
  destruct LC as (c0 & r & E1 & E2).
  destruct (join_pieces (indent column (c_start c)) lines t (indent_blank column _) NL) as (new & A & P & T).
  exists new. split; [auto|]. split; [auto|].
  subst e. unfold apply_missing. rewrite E1, E2. unfold file.
  replace (pre ++ b "{" ++ pieces ps ++ closing ++ b "}" ++ post) with ((pre ++ b "{" ++ pieces ps) ++ [] ++ closing ++ b "}" ++ post) by (cbn [app]; now rewrite <- !app_assoc).
  assert (POS : c_end c = zlen (pre ++ b "{" ++ pieces ps)).
  { subst c. cbn [c_end]. rewrite EP, pieces_app, !zlen_app. change (pieces [p]) with ((gap p ++ text p) ++ []). rewrite app_nil_r, !zlen_app. change (zlen (b "{")) with 1. lia. }
  rewrite splice_at; cbn [e_pos e_end e_text]; [|auto|now rewrite app_nil_r].
  rewrite pieces_app, P, <- !app_assoc. reflexivity.
Qed.
Print Assumptions C40_clauses_appended.

(** With a default clause: they come right before it. *)
Theorem C40_clauses_before_default :
  forall column node pre before d after closing post lines t,
    let ps := before ++ d :: after in
    let cases := parsed (zlen pre + 1) ps in
    (forall p, In p before -> type p <> None) -> type d = None ->
    let e := apply_missing column node (zlen pre) (zlen pre + 1 + zlen (pieces ps) + zlen closing + 1) cases (find is_default cases) lines in
    exists new d', (lines = [] -> new = []) /\ 
      (forall x l, lines = x :: l -> exists new', new = Piece (gap d) x t :: new' /\ added l new') /\
      Forall (fun p => type p = t) new /\ text d' = text d /\ type d' = None /\ (gap d' = gap d \/ is_blank (gap d')) /\
      splice (file pre ps closing post) e = file pre (before ++ new ++ d' :: after) closing post.
Proof.
  intros column node pre before d after closing post lines t ps cases NB ND e.
  assert (EC : cases = parsed (zlen pre + 1) before ++ parsed (zlen pre + 1 + zlen (pieces before)) (d :: after)) by apply parsed_app.
  cbn [parsed] in EC. set (c := Clause _ _ (type d)) in EC. set (rest := parsed _ after) in EC.
  assert (F : find is_default cases = Some c).
  { rewrite EC. assert (TC : c_type c = None) by exact ND. clear - NB TC. clearbody c rest. generalize (zlen pre + 1). induction before as [|p before IH]; intros pos; cbn [parsed app find].
    - unfold is_default at 1. rewrite TC. reflexivity.
    - unfold is_default at 1. cbn [c_type]. destruct (type p) eqn:E; [|destruct (NB p (or_introl eq_refl) E)]. apply IH. intros q I. apply NB. now right. }
  set (ind := indent column (c_start (last (tl cases) (hd c cases)))).
  assert (EE : e = Edit (c_start c) (c_start c) (flat_map (fun code => code ++ nl ++ ind) lines)).
  { subst e. rewrite F. unfold apply_missing, ind. rewrite EC. destruct (parsed (zlen pre + 1) before); reflexivity. }
  assert (BI : is_blank (nl ++ ind)) by (constructor; [auto|apply indent_blank]).
  assert (G : forall g, exists new g', (lines = [] -> new = []) /\ (forall x l, lines = x :: l -> exists new', new = Piece g x t :: new' /\ added l new') /\
     Forall (fun p => type p = t) new /\ (g' = g \/ is_blank g') /\ g ++ flat_map (fun code => code ++ nl ++ ind) lines = pieces new ++ g').
  { clear EE e. induction lines as [|x l IH]; intros g.
    - exists [], g. split; [auto|]. split; [discriminate|]. split; [constructor|]. split; [auto|]. unfold pieces. cbn. apply app_nil_r.
    - destruct (IH (nl ++ ind)) as (new & g' & N1 & N2 & N3 & N4 & N5). exists (Piece g x t :: new), g'. split; [discriminate|]. split; [|split; [|split]].
      + intros x' l' [= <- <-]. exists new. split; [reflexivity|]. destruct l as [|y l]; [rewrite N1 by auto; constructor|].
        destruct (N2 y l eq_refl) as (n' & -> & A). now constructor.
      + constructor; auto.
      + right. destruct N4 as [->|N4]; auto.
      + cbn [flat_map]. change (pieces (Piece g x t :: new)) with ((g ++ x) ++ pieces new). rewrite <- !app_assoc, <- N5, <- !app_assoc. reflexivity. }
  destruct (G (gap d)) as (new & g' & N1 & N2 & N3 & N4 & N5).
  exists new, (Piece g' (text d) None). split; [auto|]. split; [auto|]. split; [auto|]. split; [reflexivity|]. split; [reflexivity|]. split; [exact N4|].
  rewrite EE. unfold file, ps. rewrite !pieces_app.
  replace (pre ++ b "{" ++ (pieces before ++ pieces (d :: after)) ++ closing ++ b "}" ++ post)
     with ((pre ++ b "{" ++ pieces before ++ gap d) ++ [] ++ text d ++ pieces after ++ closing ++ b "}" ++ post)
     by (change (pieces (d :: after)) with ((gap d ++ text d) ++ pieces after); cbn [app]; now rewrite <- !app_assoc).
  rewrite splice_at; cbn [e_pos e_end e_text].
  - change (pieces (Piece g' (text d) None :: after)) with ((g' ++ text d) ++ pieces after). rewrite <- !app_assoc.
    rewrite (app_assoc (gap d)), N5, <- !app_assoc. reflexivity.
  - subst c. cbn [c_start]. rewrite !zlen_app. change (zlen (b "{")) with 1. lia.
  - subst c. cbn [c_start]. rewrite app_nil_r, !zlen_app. change (zlen (b "{")) with 1. lia.
Qed.
Print Assumptions C40_clauses_before_default.

(** No clauses: the block holds the new ones afterwards. *)
Theorem C40_clauses_into_empty :
  forall column node pre closing post lines t,
    lines <> [] ->
    let e := apply_missing column node (zlen pre) (zlen pre + 1 + zlen closing + 1) [] None lines in
    exists new closing', added lines new /\ Forall (fun p => type p = t) new /\ is_blank closing' /\
      splice (file pre [] closing post) e = file pre new closing' post.
Proof.
  intros column node pre closing post lines t NL e. set (ind := indent column node).
  destruct (join_pieces ind lines t (indent_blank column _) NL) as (new & A & P & T).
  exists new, (nl ++ ind). split; [auto|]. split; [auto|]. split; [constructor; [auto|apply indent_blank]|].
  subst e. unfold apply_missing. fold ind. unfold file. cbn [pieces flat_map app].
  replace (pre ++ b "{" ++ closing ++ b "}" ++ post) with (pre ++ (b "{" ++ closing ++ b "}") ++ post) by now rewrite <- !app_assoc.
  rewrite splice_at; cbn [e_pos e_end e_text]; [|auto|].
  - rewrite P. cbn [join_lines]. now rewrite <- !app_assoc.
  - rewrite !zlen_app. change (zlen (b "{")) with 1. change (zlen (b "}")) with 1. lia.
Qed.
Print Assumptions C40_clauses_into_empty.

(** A comment in a block without clauses does not survive. *)
Theorem C40_comment_lost_refuted :
  exists pre closing post lines,
    let e := apply_missing (fun _ => 0) 0 (zlen pre) (zlen pre + 1 + zlen closing + 1) [] None lines in
    lines <> [] /\ splice (file pre [] closing post) e = b "switch (x) {" ++ nl ++ b "case 1: {}" ++ nl ++ b "}" /\
    file pre [] closing post = b "switch (x) { /* TODO */ }".
Proof.
  exists (b "switch (x) "), (b " /* TODO */ "), [], [b "case 1: {}"]. repeat split. discriminate.
Qed.
Print Assumptions C40_comment_lost_refuted.

(** ** What they say *)

Definition cp (s : string) : list Z := map bz (b s).
(** A text that may stand in a single line. *)
Definition one_line (s : list Z) : Prop := Forall scalar s /\ ~ In 10 s /\ ~ In 13 s.

Definition escape_cp (s : list Z) : list Z := flat_map (fun c => if (c =? 92) || (c =? 39) then [92; c] else [c]) s.
Lemma escape_enc c : scalar c -> escape_case (enc c) = flat_map enc (if (c =? 92) || (c =? 39) then [92; c] else [c]).
Proof.
  intros S. destruct (Z.eqb_spec c 92) as [->|N1]; [reflexivity|]. destruct (Z.eqb_spec c 39) as [->|N2]; [reflexivity|]. cbn [orb flat_map]. rewrite app_nil_r.
  assert (H : Forall (fun x => x <> "\"%char /\ x <> "'"%char) (enc c)).
  { assert (E : runes (enc c) = [c]) by (pose proof (runes_enc c [] S) as H; rewrite app_nil_r in H; exact H).
    apply Forall_forall. intros x I.
    assert (K : 128 <= bz x \/ bz x = c).
    { unfold enc in *. revert I. repeat match goal with |- context[if ?q then _ else _] => destruct q eqn:? end; cbn [In]; intros I;
        rewrite ?andb_true_iff, ?andb_false_iff, ?Z.leb_le, ?Z.ltb_lt, ?Z.leb_gt, ?Z.ltb_ge in *;
        (repeat match type of I with _ \/ _ => destruct I as [<-|I] end); try contradiction;
        rewrite ?bz_zb by (destruct S; zdm); try (right; lia); try (left; destruct S; zdm); try (left; lia). }
    split; intros ->; [change (bz "\"%char) with 92 in K|change (bz "'"%char) with 39 in K]; lia. }
  clear - H. induction (enc c) as [|x l IH]; [reflexivity|]. inversion H as [|? ? [A B] F]; subst. unfold escape_case in *. cbn [flat_map].
  rewrite IH by auto. destruct (Ascii.eqb_spec x "\"%char); [contradiction|]. destruct (Ascii.eqb_spec x "'"%char); [contradiction|]. reflexivity.
Qed.
Lemma escape_bytes s : Forall scalar s -> escape_case (bytes s) = bytes (escape_cp s).
Proof.
  unfold bytes, escape_cp. induction 1 as [|c s S _ IH]; [reflexivity|]. cbn [flat_map]. rewrite flat_map_app, <- IH, <- escape_enc by auto.
  unfold escape_case. now rewrite flat_map_app.
Qed.
Lemma escape_chars strict s r v : one_line s -> chars (JsText.Str 39 strict) r v -> chars (JsText.Str 39 strict) (escape_cp s ++ r) (flat_map units s ++ v).
Proof.
  intros (S & A & B) R. induction S as [|c s Sc S IH]; [exact R|]. cbn [In] in A, B. unfold escape_cp. cbn [flat_map].
  assert (IH' : chars (JsText.Str 39 strict) (escape_cp s ++ r) (flat_map units s ++ v)) by (apply IH; tauto). clear IH.
  rewrite <- !app_assoc. destruct ((c =? 92) || (c =? 39)) eqn:E.
  - cbn [app]. apply (c_esc _ [c] (escape_cp s ++ r) (units c) (flat_map units s ++ v)); [|auto].
    apply orb_true_iff in E. rewrite !Z.eqb_eq in E. destruct E as [-> | ->]; apply e_single; constructor.
  - apply orb_false_iff in E. rewrite !Z.eqb_neq in E. apply (c_plain _ c (escape_cp s ++ r)); [|auto]. repeat split; lia.
Qed.
Lemma ascii_plain s : forallb (fun c => (32 <=? c) && (c <? 127) && negb (c =? 92) && negb (c =? 39)) s = true -> Forall (fun c => 32 <= c < 127 /\ c <> 92 /\ c <> 39) s.
Proof.
  intros H. apply Forall_forall. intros c I. rewrite forallb_forall in H. specialize (H c I). rewrite !andb_true_iff, !negb_true_iff, Z.leb_le, Z.ltb_lt, !Z.eqb_neq in H. tauto.
Qed.
Lemma ascii_scalar s : forallb (fun c => (0 <=? c) && (c <? 127)) s = true -> Forall scalar s.
Proof.
  intros H. apply Forall_forall. intros c I. rewrite forallb_forall in H. specialize (H c I). rewrite andb_true_iff, Z.leb_le, Z.ltb_lt in H. left. lia.
Qed.
Lemma plain_chars strict s r v : Forall (fun c => 32 <= c < 127 /\ c <> 92 /\ c <> 39) s -> chars (JsText.Str 39 strict) r v -> chars (JsText.Str 39 strict) (s ++ r) (s ++ v).
Proof.
  intros F R. induction F as [|c s H F IH]; [exact R|]. cbn [app].
  replace (c :: s ++ v) with (units c ++ s ++ v) by (unfold units; rewrite (proj2 (Z.ltb_lt c 65536)) by lia; reflexivity).
  apply c_plain; [repeat split; lia|auto].
Qed.

(** The clause for a test is [case test: { throw new Error(literal) }], where the literal reads
    "Not implemented yet: test case", in strict and in sloppy code. *)
Theorem C40_clause_text :
  forall strict test, one_line test ->
    exists lit, case_line (bytes test) = bytes (cp "case " ++ test ++ cp ": { throw new Error(" ++ lit ++ cp ") }") /\
      string_literal strict lit (cp "Not implemented yet: " ++ flat_map units test ++ cp " case").
Proof.
  intros strict test OL. exists (39 :: (cp "Not implemented yet: " ++ escape_cp test ++ cp " case") ++ [39]). split.
  - unfold case_line. rewrite escape_bytes by apply OL. unfold bytes. cbn [flat_map app]. rewrite !flat_map_app. cbn [flat_map app]. rewrite !flat_map_app, <- !app_assoc. reflexivity.
  - exists 39, (cp "Not implemented yet: " ++ escape_cp test ++ cp " case"). split; [auto|]. split; [reflexivity|].
    apply plain_chars; [now apply ascii_plain|]. apply escape_chars; [auto|].
    replace (cp " case") with (cp " case" ++ []) by apply app_nil_r. apply plain_chars; [now apply ascii_plain|constructor].
Qed.
Print Assumptions C40_clause_text.

(** The test for an enum member whose name is no identifier is [Enum['name']] with a literal that
    reads as the name; the clause is one line. *)
Theorem C40_quoted_member :
  forall to_string is_identifier strict t symbol name,
    t_symbol t = Some name -> symbol <> [] -> is_identifier (bytes name) = false -> Forall scalar name -> one_line symbol ->
    exists lit, case_test to_string is_identifier t symbol = bytes (symbol ++ cp "[" ++ lit ++ cp "]") /\
      string_literal strict lit (flat_map units name) /\ one_line (symbol ++ cp "[" ++ lit ++ cp "]").
Proof.
  intros to_string is_identifier strict t symbol name ES NS NI SC OL.
  destruct (C30_literal_evaluates_to_text strict name SC) as (lit & SL & EL & VL).
  exists lit. split; [|split; [auto|]].
  - unfold case_test. rewrite ES, NI. destruct symbol; [congruence|]. cbn [negb andb]. unfold bytes at 2. rewrite EL. unfold bytes. rewrite !flat_map_app. reflexivity.
  - assert (R : runes (quote_single (flat_map enc name)) = lit).
    { rewrite EL. pose proof (runes_encs lit [] SL) as H. rewrite !app_nil_r in H. exact H. }
    assert (N : forall c, In c lit -> 32 <= c) by (intros c I; rewrite <- R in I; now apply C30_no_raw_control in I).
    destruct OL as (O1 & O2 & O3). split; [|split].
    + rewrite !Forall_app. split; [auto|]. split; [now apply ascii_scalar|]. split; [auto|]. now apply ascii_scalar.
    + rewrite !in_app_iff. intros [H|[H|[H|H]]]; [auto|cbn in H; intuition discriminate|apply N in H; lia|cbn in H; intuition discriminate].
    + rewrite !in_app_iff. intros [H|[H|[H|H]]]; [auto|cbn in H; intuition discriminate|apply N in H; lia|cbn in H; intuition discriminate].
Qed.
Print Assumptions C40_quoted_member.
(** Other tests are the checker's name for the type, or the name of the symbol. *)
Theorem C40_plain_test :
  forall to_string is_identifier t symbol,
    (symbol = [] \/ exists name, t_symbol t = Some name /\ is_identifier (bytes name) = true) ->
    (~ (In FESSymbol (t_flags t) \/ In FUniqueESSymbol (t_flags t)) -> case_test to_string is_identifier t symbol = to_string t) /\
    (forall name, In FESSymbol (t_flags t) \/ In FUniqueESSymbol (t_flags t) -> t_symbol t = Some name -> case_test to_string is_identifier t symbol = bytes name).
Proof.
  intros to_string is_identifier t symbol H.
  assert (S : forall c, In c [FESSymbol; FUniqueESSymbol] -> In c (t_flags t) -> is_set t ESSymbolLike = true).
  { intros c I J. unfold is_set. apply existsb_exists. exists c. split; [auto|]. apply existsb_exists. exists c. split; [auto|]. unfold flag_eqb. destruct (flag_eq_dec c c); congruence. }
  assert (Q : negb (match symbol with [] => true | _ => false end) && negb (is_identifier (match t_symbol t with Some n => bytes n | None => [] end)) = false).
  { destruct H as [->|(n & -> & ->)]; [reflexivity|]. now rewrite andb_false_r. }
  split.
  - intros NS. unfold case_test. rewrite Q. destruct (is_set t ESSymbolLike) eqn:E; [|reflexivity]. exfalso. apply NS. unfold is_set in E.
    apply existsb_exists in E. destruct E as (f & I & E). apply existsb_exists in E. destruct E as (g & J & E). unfold flag_eqb in E. destruct (flag_eq_dec f g); [subst g|discriminate].
    destruct J as [<-|[<-|[]]]; auto.
  - intros name SY E. unfold case_test. rewrite Q, E. destruct SY as [I|I]; [rewrite (S FESSymbol)|rewrite (S FUniqueESSymbol)]; cbn; auto.
Qed.
Print Assumptions C40_plain_test.
(** A missing member without a name next to a type that has one is tested for under the empty name. *)
Theorem C40_unnamed_refuted :
  exists t symbol, forall to_string is_identifier, is_identifier [] = false -> case_test to_string is_identifier t symbol = b "E['']".
Proof. exists (Ty 1 [FStringLiteral] [97] None []), [69]. intros ts ii H. unfold case_test. cbn [t_symbol]. rewrite H. reflexivity. Qed.
Print Assumptions C40_unnamed_refuted.

(** ** What they do (C44) *)

(** Running a switch.  A clause has the value of its test, none for default, what its statements do,
    and whether control reaches their end. *)
Record step := Step { test : option value; events : list bstr; falls : bool }.
Definition equal (v w : value) : Prop := v = w /\ v <> Num [78; 97; 78].
Definition matches (v : value) (c : step) : Prop := exists w, test c = Some w /\ equal v w.
(** The events from the start of a list of clauses on. *)
Inductive from : list step -> list bstr -> Prop :=
| fr_nil : from [] []
| fr_stop c l : falls c = false -> from (c :: l) (events c)
| fr_next c l ev : falls c = true -> from l ev -> from (c :: l) (events c ++ ev).
(** Control goes to the first clause that matches, else to the default clause, else past the switch. *)
Inductive runs (v : value) (cs : list step) : list bstr -> Prop :=
| r_match a c l ev : cs = a ++ c :: l -> Forall (fun k => ~ matches v k) a -> matches v c -> from (c :: l) ev -> runs v cs ev
| r_default a c l ev : cs = a ++ c :: l -> Forall (fun k => ~ matches v k) cs -> test c = None -> Forall (fun k => test k <> None) a -> from (c :: l) ev -> runs v cs ev
| r_none : Forall (fun k => ~ matches v k) cs -> Forall (fun k => test k <> None) cs -> runs v cs [].
(** A suggested clause throws. *)
Definition throws (c : step) (w : value) (message : bstr) : Prop := test c = Some w /\ events c = [message] /\ falls c = false.
(** Where the clauses go: before the default clause if there is one, else to the end. *)
Inductive inserted (new : list step) : list step -> list step -> Prop :=
| in_default before d after : test d = None -> Forall (fun k => test k <> None) before -> inserted new (before ++ d :: after) (before ++ new ++ d :: after)
| in_end cs : Forall (fun k => test k <> None) cs -> inserted new cs (cs ++ new).
(** Control does not reach the end of the clause before that place. *)
Inductive closed : list step -> Prop :=
| cl_default before d after : test d = None -> Forall (fun k => test k <> None) before -> (forall b' c, before = b' ++ [c] -> falls c = false) -> closed (before ++ d :: after)
| cl_end cs : Forall (fun k => test k <> None) cs -> (forall b' c, cs = b' ++ [c] -> falls c = false) -> closed cs.

Lemma split_unique a c l a' c' l' : a ++ c :: l = a' ++ c' :: l' -> test c = None -> test c' = None -> Forall (fun k => test k <> None) a -> Forall (fun k => test k <> None) a' -> a = a' /\ c = c' /\ l = l'.
Proof.
  revert a'. induction a as [|x a IH]; intros [|x' a'] E T T' F F'; cbn [app] in E; injection E as E1 E2; subst; auto.
  - inversion F'; contradiction.
  - inversion F; contradiction.
  - inversion F; inversion F'; subst. destruct (IH a' E2) as (-> & -> & ->); auto.
Qed.
Lemma from_closed a l l' ev : a <> [] -> (forall b' c, a = b' ++ [c] -> falls c = false) -> from (a ++ l) ev -> from (a ++ l') ev.
Proof.
  revert ev. induction a as [|c a IH]; intros ev NE CL F; [congruence|]. cbn [app] in *. inversion F as [|? ? ST|? ? ev' FA F']; subst.
  - now apply fr_stop.
  - apply fr_next; [auto|]. destruct a as [|c' a]; [specialize (CL [] c eq_refl); congruence|].
    apply IH; [discriminate| |auto]. intros b' k E. apply (CL (c :: b') k). cbn. now rewrite E.
Qed.
Lemma tail_closed a c l : (forall b' k, a ++ c :: l = b' ++ [k] -> falls k = false) -> forall b' k, c :: l = b' ++ [k] -> falls k = false.
Proof. intros H b' k E. apply (H (a ++ b') k). rewrite E. apply app_assoc. Qed.

(** Adding clauses does not change what happens to values no new clause is for, provided control does
    not fall out of the clause before them.

    Full statement: the same without that condition.  That is false, with and without a default clause:
    see the refutations below. *)
Theorem C44_other_values_partial :
  forall new cs cs' v ev,
    inserted new cs cs' -> closed cs -> Forall (fun k => test k <> None /\ ~ matches v k) new ->
    runs v cs ev -> runs v cs' ev.
Proof.
  intros new cs cs' v ev IN CL NM R.
  assert (NEW : Forall (fun k => ~ matches v k) new) by (revert NM; apply Forall_impl; intros k [_ H]; exact H).
  assert (NT : Forall (fun k => test k <> None) new) by (revert NM; apply Forall_impl; intros k [H _]; exact H).
  destruct IN as [before d after TD FB|cs FA].
  - assert (CB : forall b' c, before = b' ++ [c] -> falls c = false).
    { inversion CL as [before' d' after' TD' FB' CB E|? F _ E]; subst.
      - destruct (split_unique _ _ _ _ _ _ E TD' TD FB' FB) as (-> & _ & _). auto.
      - apply Forall_app in F. destruct F as [_ F]. inversion F; contradiction. }
    clear CL. inversion R as [a c l ev' E F M FR|a c l ev' E F T FT FR|F T]; subst.
    + destruct (app_eq_app _ _ _ _ E) as (m & [[E1 E2]|[E1 E2]]).
      * destruct m as [|c' m].
        -- cbn [app] in E2. injection E2 as E2 E3. subst c l. destruct M as (w & M & _). congruence.
        -- cbn [app] in E2. injection E2 as E2 E3. subst c' l before. rewrite <- app_assoc. cbn [app].
           eapply r_match; [reflexivity|auto|auto|]. change (c :: m ++ new ++ d :: after) with ((c :: m) ++ new ++ d :: after).
           apply (from_closed (c :: m) (d :: after)); [discriminate|eapply tail_closed; exact CB|exact FR].
      * destruct m as [|d' m].
        -- cbn [app] in E2. injection E2 as E2 E3. subst c l. destruct M as (w & M & _). congruence.
        -- cbn [app] in E2. injection E2 as E2 E3. subst d' after a.
           apply Forall_app in F. destruct F as [F1 F2].
           apply (r_match v _ (before ++ new ++ d :: m) c l); [now rewrite <- !app_assoc| |auto|auto]. rewrite !Forall_app. auto.
    + destruct (split_unique _ _ _ _ _ _ E TD T FB FT) as (<- & <- & <-). apply Forall_app in F. destruct F as [F1 F2].
      apply (r_default v _ (before ++ new) d after); [now rewrite <- app_assoc|rewrite !Forall_app; auto|auto|now apply Forall_app|auto].
    + apply Forall_app in T. destruct T as [_ T]. inversion T; contradiction.
  - assert (CB : forall b' c, cs = b' ++ [c] -> falls c = false).
    { inversion CL as [before' d' after' TD' FB' CB E|? F CB E]; subst; [|auto]. apply Forall_app in FA. destruct FA as [_ FA]. inversion FA; contradiction. }
    clear CL. inversion R as [a c l ev' E F M FR|a c l ev' E F T FT FR|F T]; subst.
    + eapply r_match; [now rewrite <- app_assoc|auto|auto|]. cbn [app]. change (c :: l ++ new) with ((c :: l) ++ new).
      apply (from_closed (c :: l) []); [discriminate|eapply tail_closed; exact CB|now rewrite app_nil_r].
    + apply Forall_app in FA. destruct FA as [_ FA]. inversion FA; contradiction.
    + apply r_none; rewrite Forall_app; auto.
Qed.
Print Assumptions C44_other_values_partial.

(** A value a new clause is for, and no old one, now throws that clause's message. *)
Theorem C44_missing_values :
  forall new cs cs' v w message before c after,
    inserted new cs cs' -> Forall (fun k => ~ matches v k) cs -> new = before ++ c :: after -> Forall (fun k => ~ matches v k) before ->
    throws c w message -> equal v w -> runs v cs' [message].
Proof.
  intros new cs cs' v w message before c after IN NM -> NB (T & E & F) EQ.
  assert (M : matches v c) by (exists w; auto). assert (FR : forall l, from (c :: l) [message]) by (intros l; rewrite <- E; now apply fr_stop).
  destruct IN as [b0 d a0 TD FB|cs FA].
  - apply Forall_app in NM. destruct NM as [N1 N2]. apply (r_match v _ (b0 ++ before) c (after ++ d :: a0)); [now rewrite <- !app_assoc|now apply Forall_app|auto|auto].
  - apply (r_match v _ (cs ++ before) c after); [now rewrite <- app_assoc|now apply Forall_app|auto|auto].
Qed.
Print Assumptions C44_missing_values.

(** The condition is needed: in [switch (x) { case "a": f() }] the value "a" throws after the suggestion;
    so it does in [switch (x) { case "a": default: f() }]. *)
Theorem C44_last_clause_refuted :
  exists new cs cs' v ev ev', inserted new cs cs' /\ Forall (fun k => test k <> None /\ ~ matches v k) new /\ Forall (fun k => test k <> None) cs /\
    runs v cs ev /\ runs v cs' ev' /\ ev <> ev'.
Proof.
  set (f := Step (Some (Types.Str [97])) [b "f()"] true). set (n := Step (Some (Types.Str [98])) [b "throw"] false).
  exists [n], [f], [f; n], (Types.Str [97]), [b "f()"], [b "f()"; b "throw"].
  assert (M : matches (Types.Str [97]) f) by (exists (Types.Str [97]); repeat split; discriminate).
  split; [apply (in_end [n] [f]); repeat constructor; discriminate|].
  split; [constructor; [split; [discriminate|intros (w & [= <-] & [E _]); discriminate]|constructor]|].
  split; [repeat constructor; discriminate|].
  split; [apply (r_match _ _ [] f []); auto; apply (fr_next f [] []); [reflexivity|constructor]|].
  split; [apply (r_match _ _ [] f [n]); auto; apply (fr_next f [n] [b "throw"]); [reflexivity|now apply (fr_stop n)]|discriminate].
Qed.
Print Assumptions C44_last_clause_refuted.
Theorem C44_shared_default_refuted :
  exists new cs cs' v ev ev', inserted new cs cs' /\ Forall (fun k => test k <> None /\ ~ matches v k) new /\ Exists (fun k => test k = None) cs /\
    runs v cs ev /\ runs v cs' ev' /\ ev <> ev'.
Proof.
  set (a := Step (Some (Types.Str [97])) [] true). set (d := Step None [b "f()"] true). set (n := Step (Some (Types.Str [98])) [b "throw"] false).
  exists [n], [a; d], [a; n; d], (Types.Str [97]), [b "f()"], [b "throw"].
  assert (M : matches (Types.Str [97]) a) by (exists (Types.Str [97]); repeat split; discriminate).
  split; [apply (in_default [n] [a] d []); [reflexivity|repeat constructor; discriminate]|].
  split; [constructor; [split; [discriminate|intros (w & [= <-] & [E _]); discriminate]|constructor]|].
  split; [right; now constructor|].
  split; [apply (r_match _ _ [] a [d]); auto; apply (fr_next a [d] [b "f()"]); [reflexivity|apply (fr_next d [] []); [reflexivity|constructor]]|].
  split; [apply (r_match _ _ [] a [n; d]); auto; apply (fr_next a [n; d] [b "throw"]); [reflexivity|now apply (fr_stop n)]|discriminate].
Qed.
Print Assumptions C44_shared_default_refuted.

(** ** Examples *)
Definition ex_pieces : list piece := [Piece (b " ") (b "case 'a': f(); break;") (Some (Ty 1 [FStringLiteral] [97] None []))].
Example C40_ex_text :
  let src := file (b "switch (x) ") ex_pieces (b " ") [] in
  let e := apply_missing (fun _ => 2) 0 11 (zlen src) (parsed 12 ex_pieces) None [case_line (b "'b'"); case_line (b "'c'")] in
  src = b "switch (x) { case 'a': f(); break; }" /\
  splice src e = b "switch (x) { case 'a': f(); break;" ++ nl ++
     b "  case 'b': { throw new Error('Not implemented yet: \'b\' case') }" ++ nl ++
     b "  case 'c': { throw new Error('Not implemented yet: \'c\' case') } }".
Proof. repeat split. Qed.
Definition ex_default : list piece := ex_pieces ++ [Piece nl (b "default: g()") None].
Example C40_ex_before_default :
  let src := file (b "switch (x) ") ex_default nl [] in
  splice src (apply_missing (fun _ => 0) 0 11 (zlen src) (parsed 12 ex_default) (find is_default (parsed 12 ex_default)) [b "case 1: {}"; b "case 2: {}"]) =
  b "switch (x) { case 'a': f(); break;" ++ nl ++ b "case 1: {}" ++ nl ++ b "case 2: {}" ++ nl ++ b "default: g()" ++ nl ++ b "}".
Proof. reflexivity. Qed.
Example C40_ex_member :
  case_test (fun _ => []) (fun _ => false) (Ty 1 [FEnumLiteral; FStringLiteral] [120] (Some (cp "it's")) []) (cp "E") = b "E['it\'s']" /\ one_line (cp "E['it\'s']").
Proof. split; [reflexivity|]. split; [now apply ascii_scalar|cbn; intuition discriminate]. Qed.
(** [switch (x) { case "a": f(); break; default: g() }] with a clause for "b". *)
Definition ex_steps : list step := [Step (Some (Types.Str [97])) [b "f()"] false; Step None [b "g()"] true].
Example C44_ex_closed : closed ex_steps /\ runs (Types.Str [97]) ex_steps [b "f()"] /\ runs (Types.Str [98]) ex_steps [b "g()"] /\
  inserted [Step (Some (Types.Str [98])) [b "throw"] false] ex_steps [Step (Some (Types.Str [97])) [b "f()"] false; Step (Some (Types.Str [98])) [b "throw"] false; Step None [b "g()"] true].
Proof.
  set (a := Step (Some (Types.Str [97])) [b "f()"] false). set (d := Step None [b "g()"] true).
  assert (T : Forall (fun k => test k <> None) [a]) by (repeat constructor; discriminate).
  split; [|split; [|split]].
  - apply (cl_default [a] d []); [reflexivity|auto|]. intros b' c E. destruct b' as [|? [|]]; injection E as <-; try discriminate. reflexivity.
  - apply (r_match _ _ [] a [d]); auto; [exists (Types.Str [97]); repeat split; discriminate|now apply (fr_stop a)].
  - apply (r_default _ _ [a] d []); auto.
    + repeat constructor; intros (w & [= <-] & [E _]); discriminate.
    + apply (fr_next d [] []); [reflexivity|constructor].
  - apply (in_default [Step (Some (Types.Str [98])) [b "throw"] false] [a] d []); auto.
Qed.
