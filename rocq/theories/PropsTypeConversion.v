(** C50: conversions of values that have the type already (TypeConversion.v). *)
From Coq Require Import String Ascii Bool List ZArith Lia.
From Verif Require Import Base EngineProofs Types Fixer FixerSpec FixerProofs FixOne Js JsProofs TypeConversion TypeConversionProofs.
Import ListNotations.
Open Scope Z_scope.

(** ** Specification *)
(** The parts of a type. *)
Definition part (p t : ty) : Prop := (In FUnion (t_flags t) /\ In p (t_parts t)) \/ (~ In FUnion (t_flags t) /\ p = t).
Definition all_of (fs : list flag) (t : ty) : Prop := forall p, part p t -> exists f, In f (t_flags p) /\ In f fs.
Definition string_type := all_of [FString; FStringLiteral; FTemplateLiteral; FStringMapping].
Definition number_type := all_of [FNumber; FNumberLiteral; FEnum].
Definition boolean_type := all_of [FBoolean; FBooleanLiteral].
Definition bigint_type := all_of [FBigInt; FBigIntLiteral].
(** How an integer prints in JavaScript: digits, for large ones with an exponent, or an infinity. *)
Definition digit (c : Z) : Prop := 48 <= c <= 57.
Definition integer_printed (s : list Z) : Prop :=
  exists sign body, s = sign ++ body /\ (sign = [] \/ sign = [45]) /\
  (body = [73; 110; 102; 105; 110; 105; 116; 121] \/
   exists ds tail, body = ds ++ tail /\ ds <> [] /\ Forall digit ds /\
   (tail = [] \/ (exists x, tail = 101 :: 43 :: x) \/ exists ds' x, tail = 46 :: ds' ++ 101 :: 43 :: x /\ Forall digit ds')).
Definition integers (t : ty) : Prop :=
  (exists p, part p t) /\ forall p, part p t -> In FNumberLiteral (t_flags p) /\ integer_printed (t_text p).
(** The tokens [y] after [x]. *)
Definition span (x y : list tok) : Z * Z := (zlen x, zlen x + zlen y).
Inductive named_conversion : bstr -> list bstr -> (ty -> Prop) -> bstr -> Prop :=
| nc_bigint : named_conversion (b "BigInt") [b "BigInt"; b "BigIntConstructor"] bigint_type (b "bigint")
| nc_boolean : named_conversion (b "Boolean") [b "Boolean"; b "BooleanConstructor"] boolean_type (b "boolean")
| nc_number : named_conversion (b "Number") [b "Number"; b "NumberConstructor"] number_type (b "number")
| nc_string : named_conversion (b "String") [b "String"; b "StringConstructor"] string_type (b "string").
Definition empty_string : tree := Atom (AStr []).
Section Shown.
Variables (type_of : tree -> ty) (enum_member : ty -> bool) (builtin_symbol : tree -> list bstr -> bool).
(** What is reported at a node: [x + ''], ['' + x], [x += ''], [String(x)] and the like, [x.toString()], [+x], [!!x] and [~~x]. *)
Inductive shown (c : list frame) : tree -> report -> Prop :=
| sh_right l : string_type (type_of l) ->
    shown c (Bin OPlus l empty_string) (Report (span (before c ++ print l) [TBin OPlus; TAtom (AStr [])]) (span (before c) (print l)) c (Bin OPlus l empty_string) l (b "string") false)
| sh_left r : r <> empty_string -> string_type (type_of r) ->
    shown c (Bin OPlus empty_string r) (Report (span (before c) [TAtom (AStr []); TBin OPlus]) (span (before c ++ [TAtom (AStr []); TBin OPlus]) (print r)) c (Bin OPlus empty_string r) r (b "string") false)
| sh_assign x : string_type (type_of (Atom (AId x))) ->
    shown c (Pre (UAssign x true) empty_string)
      (Report (span (before c) [TPre (UAssign x true); TAtom (AStr [])]) (span (before c) [TPre (UAssign x true)]) c (Pre (UAssign x true) empty_string) (Atom (AId x)) (b "string") true)
| sh_call name names P prim a : named_conversion name names P prim -> builtin_symbol (Atom (AId name)) names = true -> P (type_of a) ->
    (forall x y, a <> Bin OComma x y) -> (forall x, a <> Pre USpread x) ->
    shown c (Call (Atom (AId name)) a)
      (Report (span (before c) [TAtom (AId name)]) (span (before c ++ [TAtom (AId name); TOpen]) (print a)) c (Call (Atom (AId name)) a) a prim false)
| sh_to_string t : string_type (type_of t) -> ~ In FEnum (t_flags (type_of t)) -> ~ In FEnumLiteral (t_flags (type_of t)) -> enum_member (type_of t) = false ->
    shown c (Call0 (Member t (b "toString")))
      (Report (span (before c ++ print t ++ [TDot]) [TName (b "toString"); TOpen; TClose]) (span (before c) (print t)) c (Call0 (Member t (b "toString"))) t (b "string") false)
| sh_plus t : number_type (type_of t) ->
    shown c (Pre UPlus t) (Report (span (before c) [TPre UPlus]) (span (before c ++ [TPre UPlus]) (print t)) c (Pre UPlus t) t (b "number") false)
| sh_not c' t : c = FPre UNot :: c' -> boolean_type (type_of t) ->
    shown c (Pre UNot t) (Report (span (before c') [TPre UNot; TPre UNot]) (span (before c' ++ [TPre UNot; TPre UNot]) (print t)) c' (Pre UNot (Pre UNot t)) t (b "boolean") false)
| sh_tilde c' t : c = FPre UTilde :: c' -> integers (type_of t) ->
    shown c (Pre UTilde t) (Report (span (before c') [TPre UTilde; TPre UTilde]) (span (before c' ++ [TPre UTilde; TPre UTilde]) (print t)) c' (Pre UTilde (Pre UTilde t)) t (b "number") false).
End Shown.

(** ** Reports *)
Lemma has_flag t m : is_set t m = true <-> exists f, In f (t_flags t) /\ In f m.
Proof.
  unfold is_set. rewrite existsb_exists. split; intros (f & I & H); exists f; (split; [exact I|]).
  - apply existsb_exists in H. destruct H as (g & J & E). unfold flag_eqb in E. destruct (flag_eq_dec f g); [now subst|discriminate].
  - apply existsb_exists. exists f. split; auto. unfold flag_eqb. now destruct (flag_eq_dec f f).
Qed.
Lemma part_spec p t : In p (union_parts t) <-> part p t.
Proof.
  unfold union_parts, part. assert (U : is_union t = true <-> In FUnion (t_flags t)). { unfold is_union. rewrite has_flag. split; [intros (f & I & [<-|[]]); auto|intros H; eexists; split; [exact H|cbn; auto]]. }
  rewrite <- U. destruct (is_union t); cbn [In]; split.
  - auto.
  - intros [[_ H]|[H _]]; [exact H|congruence].
  - intros [<-|[]]. right. split; [discriminate|reflexivity].
  - intros [[H _]|[_ H]]; [discriminate|auto].
Qed.
Lemma matches_spec t mask : matches t mask = true <-> all_of mask t.
Proof.
  unfold matches, all_of. rewrite forallb_forall. split; intros H p P.
  - apply has_flag, H. now apply part_spec.
  - apply has_flag, H. now apply part_spec.
Qed.
Lemma digit_spec c : is_digit c = true <-> digit c.
Proof. unfold is_digit, digit. rewrite andb_true_iff, !Z.leb_le. lia. Qed.
Definition tail_ok (tail : list Z) : Prop := tail = [] \/ (exists x, tail = 101 :: 43 :: x) \/ exists ds' x, tail = 46 :: ds' ++ 101 :: 43 :: x /\ Forall digit ds'.
Fixpoint fraction (s : list Z) : bool := match s with [] => false | 101 :: 43 :: _ => true | c :: s => if is_digit c then fraction s else false end.
Lemma fraction_S c s : c <> 101 -> fraction (c :: s) = if is_digit c then fraction s else false.
Proof.
  intros N. change (fraction (c :: s)) with (match c :: s with 101 :: 43 :: _ => true | _ => if is_digit c then fraction s else false end).
  destruct c as [|p|p]; try reflexivity. do 7 (destruct p as [p|p|]; try reflexivity). congruence.
Qed.
Lemma fraction_e s : fraction (101 :: s) = true <-> exists x, s = 43 :: x.
Proof.
  split; [|intros (x & ->); reflexivity]. destruct s as [|d s]; [discriminate|]. destruct (Z.eq_dec d 43) as [-> |N]; [eauto|].
  change (fraction (101 :: d :: s)) with (match 101 :: d :: s with 101 :: 43 :: _ => true | _ => if is_digit 101 then fraction (d :: s) else false end).
  destruct d as [|p|p]; try discriminate. do 6 (destruct p as [p|p|]; try discriminate). congruence.
Qed.
Lemma fraction_spec s : fraction s = true <-> exists ds x, s = ds ++ 101 :: 43 :: x /\ Forall digit ds.
Proof.
  induction s as [|c s IH].
  - split; [discriminate|]. intros ([|] & x & E & _); discriminate.
  - destruct (Z.eq_dec c 101) as [-> |N].
    + rewrite fraction_e. split; [intros (x & ->); exists [], x; split; auto|]. intros ([|d ds] & x & E & F); cbn in E; [injection E as ->; eauto|]. injection E as <- E2. inversion F as [|? ? D]. unfold digit in D. lia.
    + rewrite fraction_S by exact N. destruct (is_digit c) eqn:D.
      * rewrite IH. split; intros (ds & x & E & F).
        -- exists (c :: ds), x. subst. split; auto. constructor; auto. now apply digit_spec.
        -- destruct ds as [|d ds]; cbn in E; injection E as E1 E2; [congruence|]. exists ds, x. inversion F; auto.
      * split; [discriminate|]. intros ([|d ds] & x & E & F); cbn in E; injection E as E1 E2; [congruence|]. subst. inversion F as [|? ? D']. apply digit_spec in D'. congruence.
Qed.
Lemma plain_point s : plain_number (46 :: s) = fraction s.
Proof. reflexivity. Qed.
Lemma plain_e s : plain_number (101 :: s) = true <-> exists x, s = 43 :: x.
Proof.
  split; [|intros (x & ->); reflexivity]. destruct s as [|d s]; [discriminate|]. destruct (Z.eq_dec d 43) as [-> |N]; [eauto|].
  change (plain_number (101 :: d :: s)) with (match 101 :: d :: s with 101 :: 43 :: _ => true | _ => if is_digit 101 then plain_number (d :: s) else false end).
  destruct d as [|p|p]; try discriminate. do 6 (destruct p as [p|p|]; try discriminate). congruence.
Qed.
Lemma plain_S c s : c <> 101 -> c <> 46 -> plain_number (c :: s) = if is_digit c then plain_number s else false.
Proof.
  intros N M. change (plain_number (c :: s)) with (match c :: s with 46 :: s => fraction s | 101 :: 43 :: _ => true | _ => if is_digit c then plain_number s else false end).
  destruct c as [|p|p]; try reflexivity. do 7 (try (destruct p as [p|p|]; try reflexivity)); congruence.
Qed.
Lemma plain_spec s : plain_number s = true <-> exists ds tail, s = ds ++ tail /\ Forall digit ds /\ tail_ok tail.
Proof.
  induction s as [|c s IH].
  - split; [|reflexivity]. intros _. exists [], []. repeat split; auto. left. reflexivity.
  - destruct (Z.eq_dec c 101) as [-> |N]; [|destruct (Z.eq_dec c 46) as [-> |M]].
    + rewrite plain_e. split.
      * intros (x & ->). exists [], (101 :: 43 :: x). repeat split; auto. right. left. eauto.
      * intros ([|d ds] & tail & E & F & T); cbn in E.
        -- subst tail. destruct T as [T|[(x & T)|(ds & x & T & _)]]; try discriminate. injection T as ->. eauto.
        -- injection E as <- E. inversion F as [|? ? D]. unfold digit in D. lia.
    + rewrite plain_point, fraction_spec. split.
      * intros (ds & x & -> & F). exists [], (46 :: ds ++ 101 :: 43 :: x). repeat split; auto. right. right. eauto.
      * intros ([|d ds] & tail & E & F & T); cbn in E.
        -- subst tail. destruct T as [T|[(x & T)|(ds & x & T & G)]]; try discriminate. injection T as ->. eauto.
        -- injection E as <- E. inversion F as [|? ? D]. unfold digit in D. lia.
    + rewrite plain_S by auto. destruct (is_digit c) eqn:D.
      * rewrite IH. split; intros (ds & tail & E & F & T).
        -- exists (c :: ds), tail. subst. repeat split; auto. constructor; auto. now apply digit_spec.
        -- destruct ds as [|d ds]; cbn in E.
           ++ subst tail. destruct T as [T|[(x & T)|(ds & x & T & _)]]; try discriminate; injection T as T1 T2; congruence.
           ++ injection E as <- E. inversion F. eauto.
      * split; [discriminate|]. intros ([|d ds] & tail & E & F & T); cbn in E.
        -- subst tail. destruct T as [T|[(x & T)|(ds & x & T & _)]]; try discriminate; injection T as T1 T2; congruence.
        -- injection E as <- E. inversion F as [|? ? D']. apply digit_spec in D'. congruence.
Qed.
Definition unsigned (s : list Z) : list Z := match s with 45 :: s => s | _ => s end.
Lemma unsigned_spec s : (exists r, s = 45 :: r /\ unsigned s = r) \/ ((forall r, s <> 45 :: r) /\ unsigned s = s).
Proof.
  destruct s as [|c s]; [right; split; [discriminate|reflexivity]|]. destruct (Z.eq_dec c 45) as [-> |N]; [left; eexists; split; reflexivity|]. right. split; [congruence|].
  unfold unsigned. destruct c as [|p|p]; try reflexivity. do 6 (destruct p as [p|p|]; try reflexivity). congruence.
Qed.
Lemma integral_spec s : integral s = true <-> integer_printed s.
Proof.
  assert (B : forall s, match s with [] => false | c :: _ => (is_digit c && plain_number s) || (if list_eq_dec Z.eq_dec s infinity then true else false) end = true <->
    s = infinity \/ exists ds tail, s = ds ++ tail /\ ds <> [] /\ Forall digit ds /\ tail_ok tail).
  { clear s. intros [|c s]; [split; [discriminate|]; intros [H|(ds & tail & E & N & _)]; [discriminate|]; destruct ds; [congruence|discriminate]|]. rewrite orb_true_iff, andb_true_iff, plain_spec, digit_spec. split.
    - intros [[D (ds & tail & E & F & T)]|H]; [|left; destruct (list_eq_dec Z.eq_dec (c :: s) infinity); [auto|discriminate]]. right. exists ds, tail. repeat split; auto. intros ->. cbn in E. subst tail. unfold digit in D. destruct T as [T|[(x & T)|(ds & x & T & _)]]; try discriminate; injection T as T1 T2; lia.
    - intros [H|(ds & tail & E & N & F & T)]; [right; destruct (list_eq_dec Z.eq_dec (c :: s) infinity); [auto|contradiction]|]. left. split; [|eauto]. destruct ds as [|d ds]; [congruence|]. cbn in E. injection E as <- _. now inversion F. }
  unfold integral. change (match s with 45 :: s0 => s0 | _ => s end) with (unsigned s). rewrite B. unfold integer_printed. split.
  - intros H. destruct (unsigned_spec s) as [(r & E & U)|[N U]]; rewrite U in H; [exists [45], r|exists [], s]; (split; [auto|]); split; auto.
  - intros (sign & body & -> & S & H). assert (U : unsigned (sign ++ body) = body); [|rewrite U; exact H]. destruct S as [-> | ->]; [|reflexivity]. cbn [app].
    destruct (unsigned_spec body) as [(r & E & _)|[_ U]]; [|exact U]. exfalso. destruct H as [H|(ds & tail & E' & N & F & _)]; [rewrite H in E; discriminate|]. destruct ds as [|d ds]; [congruence|]. rewrite E in E'. cbn in E'. injection E' as <- _. inversion F as [|? ? D]. unfold digit in D. lia.
Qed.
Lemma all_integers_spec t : all_integers t = true <-> integers t.
Proof.
  unfold all_integers, integers.
  assert (E : forall l, forallb (fun p => if negb (is_set p [FNumberLiteral]) then false else integral (t_text p)) l = true <-> forall p, In p l -> In FNumberLiteral (t_flags p) /\ integer_printed (t_text p)).
  { intros l. rewrite forallb_forall. split; intros H p P; specialize (H p P).
    - destruct (is_set p [FNumberLiteral]) eqn:S; [|discriminate]. cbn in H. apply has_flag in S. destruct S as (f & F & [<-|[]]). split; auto. now apply integral_spec.
    - destruct H as [F I]. assert (S : is_set p [FNumberLiteral] = true) by (apply has_flag; eexists; split; [exact F|cbn; auto]). rewrite S. now apply integral_spec. }
  destruct (union_parts t) as [|p0 l] eqn:U.
  - split; [discriminate|]. intros [(p & P) _]. apply part_spec in P. rewrite U in P. destruct P.
  - rewrite E. rewrite <- U. split.
    + intros H. split; [exists p0; apply part_spec; rewrite U; now left|]. intros p P. now apply H, part_spec.
    + intros [_ H] p P. now apply H, part_spec.
Qed.
Lemma empty_spec t : is_empty_string t = true <-> t = empty_string.
Proof. unfold empty_string. destruct t as [[| [|] | | | | |]| | | | | | | |]; cbn; split; try discriminate; auto. Qed.
Lemma span_eq x y i j : zlen x = i -> zlen x + zlen y = j -> span x y = (i, j).
Proof. unfold span. congruence. Qed.
Lemma zlen_app {A} (x y : list A) : zlen (x ++ y) = zlen x + zlen y.
Proof. unfold zlen. rewrite app_length. lia. Qed.
Ltac spans := unfold span, pos, size, empty_string; cbn [print before fbefore empty_string]; rewrite ?zlen_app; unfold zlen; cbn [length]; rewrite ?app_length; cbn [length]; f_equal; try lia.
Lemma report_eq c1 e1 c2 e2 o n i p a : c1 = c2 -> e1 = e2 -> Report c1 e1 o n i p a = Report c2 e2 o n i p a.
Proof. congruence. Qed.
Theorem C50_reports : forall type_of enum_member builtin_symbol c t r,
  reported type_of enum_member builtin_symbol c t = Some r <-> shown type_of enum_member builtin_symbol c t r.
Proof.
  intros type_of enum_member sym c t r. split.
  - intros H. destruct t as [a|t|u t|t s|t n|f|f a|o l rr|x y z]; try discriminate H.
    + assert (PRE : prefix_unary type_of c u t = Some r -> shown type_of enum_member sym c (Pre u t) r).
      { clear H. intros H. destruct u; try discriminate H; cbn [prefix_unary] in H.
        - destruct c as [|[|[]| | | | | | | | | |] c]; try discriminate. destruct (matches (type_of t) BooleanLike) eqn:M; [|discriminate]. injection H as <-. apply matches_spec in M.
          erewrite report_eq; [now apply sh_not| |]; spans.
        - destruct c as [|[|[]| | | | | | | | | |] c]; try discriminate. destruct (all_integers (type_of t)) eqn:M; [|discriminate]. injection H as <-. apply all_integers_spec in M.
          erewrite report_eq; [now apply sh_tilde| |]; spans.
        - destruct (matches (type_of t) NumberLike) eqn:M; [|discriminate]. injection H as <-. apply matches_spec in M. erewrite report_eq; [now apply sh_plus| |]; spans. }
      destruct u; try (apply PRE; exact H). destruct plus; [|discriminate H]. clear PRE. cbn [reported] in H. unfold plus_equals in H.
      destruct (is_empty_string t) eqn:E; [|discriminate]. apply empty_spec in E. subst t. destruct (matches (type_of (Atom (AId name))) StringLike) eqn:M; [|discriminate]. injection H as <-. apply matches_spec in M.
      erewrite report_eq; [now apply sh_assign| |]; spans.
    + cbn [reported] in H. destruct f as [a|t|u t|t s|t n|f|f a|o l rr|x y z]; try discriminate H. cbn [to_string_call] in H. destruct (beqb n (b "toString")) eqn:N; [|discriminate]. apply beqb_eq in N. subst n.
      destruct (is_set (type_of t) EnumLike || enum_member (type_of t)) eqn:E; [discriminate|]. apply orb_false_iff in E. destruct E as [E1 E2]. destruct (matches (type_of t) StringLike) eqn:M; [|discriminate]. injection H as <-. apply matches_spec in M.
      assert (X : forall f, In f (t_flags (type_of t)) -> In f EnumLike -> False). { intros f F G. assert (is_set (type_of t) EnumLike = true) by (apply has_flag; eauto). congruence. }
      erewrite report_eq; [apply sh_to_string; auto; intros F; apply (X _ F); cbn; auto| |]; spans.
    + cbn [reported] in H. destruct f as [[name| | | | | |]|t|u t|t s|t n|f|f a0|o l rr|x y z]; try discriminate H. unfold conversion_call in H.
      destruct (match a with Bin OComma _ _ | Pre USpread _ => true | _ => false end) eqn:A; [destruct a as [| |[] ?| | | | |[] ? ?|]; discriminate|].
      assert (H' : match builtins name with
        | None => None
        | Some (mask, names) =>
          if negb (sym (Atom (AId name)) names) then None
          else if negb (matches (type_of a) mask) then None
          else Some (Report (pos c, pos c + size (Atom (AId name))) (pos c + size (Atom (AId name)) + 1, pos c + size (Atom (AId name)) + 1 + size a) c (Call (Atom (AId name)) a) a (lower name) false)
        end = Some r) by (destruct a as [| |[] ?| | | | |[] ? ?|]; try discriminate A; exact H). clear H.
      assert (A1 : forall x y, a <> Bin OComma x y) by (intros x y ->; discriminate). assert (A2 : forall x, a <> Pre USpread x) by (intros x ->; discriminate).
      assert (GO : forall mask names P prim, named_conversion name names P prim -> P = all_of mask -> prim = lower name -> builtins name = Some (mask, names) -> shown type_of enum_member sym c (Call (Atom (AId name)) a) r).
      { intros mask names P prim N EP EPR EB. rewrite EB in H'. destruct (sym (Atom (AId name)) names) eqn:S; [|discriminate]. destruct (matches (type_of a) mask) eqn:M; [|discriminate]. injection H' as <-. apply matches_spec in M. rewrite <- EPR.
        erewrite report_eq; [eapply sh_call; eauto; rewrite EP; exact M| |]; spans. }
      pose proof H' as HB. unfold builtins in HB. destruct (beqb name (b "BigInt")) eqn:E; [|destruct (beqb name (b "Boolean")) eqn:E1; [|destruct (beqb name (b "Number")) eqn:E2; [|destruct (beqb name (b "String")) eqn:E3; [|discriminate HB]]]];
        clear HB; match goal with X : beqb name _ = true |- _ => apply beqb_eq in X; subst name end; eapply GO; try constructor; try reflexivity; vm_compute; reflexivity.
    + cbn [reported] in H. destruct o; try discriminate H. unfold binary_plus in H. destruct (is_empty_string rr) eqn:E.
      * apply empty_spec in E. subst rr. destruct (matches (type_of l) StringLike) eqn:M; [|discriminate]. injection H as <-. apply matches_spec in M. erewrite report_eq; [now apply sh_right| |]; spans.
      * destruct (is_empty_string l) eqn:L; [|discriminate]. apply empty_spec in L. subst l. destruct (matches (type_of rr) StringLike) eqn:M; [|discriminate]. injection H as <-. apply matches_spec in M.
        erewrite report_eq; [apply sh_left; auto; intros ->; discriminate| |]; spans.
  - intros H. destruct H as [l T|rr N T|x T|name names P prim a N S T A1 A2|t T N1 N2 E|t T|c' t -> T|c' t -> T]; cbn [reported].
    + unfold binary_plus. cbn [is_empty_string empty_string]. rewrite (proj2 (matches_spec _ StringLike) T). apply f_equal, report_eq; spans.
    + unfold binary_plus. destruct (is_empty_string rr) eqn:E; [apply empty_spec in E; contradiction|]. cbn [is_empty_string empty_string]. rewrite (proj2 (matches_spec _ StringLike) T). apply f_equal, report_eq; spans.
    + unfold plus_equals. cbn [is_empty_string empty_string negb]. rewrite (proj2 (matches_spec _ StringLike) T). cbn [negb]. apply f_equal, report_eq; spans.
    + unfold conversion_call. assert (GO : forall (x : option report), (match a with Bin OComma _ _ | Pre USpread _ => None | _ => x end) = x) by (intros x; destruct a as [| |[] ?| | | | |[] ? ?|]; try reflexivity; [now destruct (A2 a)|now destruct (A1 a1 a2)]). rewrite GO.
      assert (exists mask, builtins name = Some (mask, names) /\ P = all_of mask /\ prim = lower name) as (mask & EB & EP & EPR) by (destruct N; eexists; repeat split; vm_compute; reflexivity).
      rewrite EB, S. rewrite EP in T. rewrite (proj2 (matches_spec _ mask) T). cbn [negb]. rewrite EPR. apply f_equal, report_eq; spans.
    + unfold to_string_call. rewrite beqb_refl. cbn [negb]. rewrite E. assert (X : is_set (type_of t) EnumLike = false). { apply not_true_is_false. intros X. apply has_flag in X. destruct X as (f & F & [<-|[<-|[]]]); contradiction. }
      rewrite X. cbn [orb]. rewrite (proj2 (matches_spec _ StringLike) T). cbn [negb]. apply f_equal, report_eq; spans.
    + cbn [prefix_unary]. rewrite (proj2 (matches_spec _ NumberLike) T). apply f_equal, report_eq; spans.
    + cbn [prefix_unary]. rewrite (proj2 (matches_spec _ BooleanLike) T). apply f_equal, report_eq; spans.
    + cbn [prefix_unary]. rewrite (proj2 (all_integers_spec _) T). apply f_equal, report_eq; spans.
Qed.
Print Assumptions C50_reports.

(** ** Suggestions *)
(** What the checker makes of a type (Types.v); [boolean] itself has the flag of a union too. *)
Inductive object_of (number : sty -> Z) : sty -> ty -> Prop :=
| oo_boolean i : object_of number (SUnion None [SBool false; SBool true]) (Ty i [FBoolean; FUnion] [] None (map (checked number) [SBool false; SBool true]))
| oo_other x : object_of number x (checked number x).
(** What is put in parentheses, and when not even that is enough: an object as the body of an arrow function. *)
Inductive bare : tree -> Prop :=
| ba_id x : bare (Atom (AId x)) | ba_str s : bare (Atom (AStr s)) | ba_num s : bare (Atom (ANum s)) | ba_bool v : bare (Atom (ABool v))
| ba_array n : bare (Atom (AArray n)) | ba_object n : bare (Atom (AObject n)) | ba_par t : bare (Par t) | ba_member t n : bare (Member t n)
| ba_call0 f : bare (Call0 f) | ba_call f a : bare (Call f a) | ba_index t n : bare (Suf t (SIndex n)) | ba_tagged t n : bare (Suf t (STagged n)).
Definition object_body (c : list frame) (t : tree) : Prop := (exists n c', c = FPre (UArrow n) :: c') /\ exists n, t = Atom (AObject n).
Inductive operand (c : list frame) (t : tree) : tree -> Prop :=
| op_bare : bare t -> ~ object_body c t -> operand c t t
| op_par : ~ bare t \/ object_body c t -> operand c t (Par t).
(** The node is one of the arguments of a call, or below an operator that does not reach over a [satisfies]. *)
Inductive an_argument : list frame -> Prop :=
| aa_arg f c : an_argument (FArg f :: c)
| aa_left r c : an_argument c -> an_argument (FLeft OComma r :: c)
| aa_right l c : an_argument c -> an_argument (FRight OComma l :: c).
Inductive tight : frame -> Prop :=
| ti_incr : tight (FSuf SIncr) | ti_index n : tight (FSuf (SIndex n)) | ti_tagged n : tight (FSuf (STagged n))
| ti_member n : tight (FMember n) | ti_call0 : tight FCallee0 | ti_call a : tight (FCallee a)
| ti_pre u : In u [UNot; UTilde; UPlus; UMinus; UAwait] -> tight (FPre u) | ti_assign x p : tight (FPre (UAssign x p))
| ti_left o r : tight (FLeft o r) | ti_right o l : tight (FRight o l) | ti_cond1 a e : tight (FCond1 a e) | ti_cond2 x e : tight (FCond2 x e) | ti_cond3 x a : tight (FCond3 x a).
Definition wrapped (c : list frame) : Prop := (exists f c', c = f :: c' /\ tight f) /\ ~ an_argument c.
Inductive asserted (c : list frame) (t : tree) (prim : bstr) : tree -> Prop :=
| as_bare x : operand c t x -> ~ wrapped c -> asserted c t prim (Suf x (SSatisfies prim))
| as_par x : operand c t x -> wrapped c -> asserted c t prim (Par (Suf x (SSatisfies prim))).

Lemma strong_spec t : strong t = true <-> bare t.
Proof.
  split.
  - destruct t as [[]| | |? []| | | | |]; cbn; try discriminate; constructor.
  - destruct 1; reflexivity.
Qed.
Lemma body_spec c t : one_line_return c t = true <-> object_body c t.
Proof.
  unfold one_line_return, object_body. split.
  - destruct c as [|[|[]| | | | | | | | | |] c]; try discriminate. destruct t as [[]| | | | | | | |]; try discriminate. intros _. split; eauto.
  - intros [(n & c' & ->) (m & ->)]. reflexivity.
Qed.
Lemma operand_spec c t : operand c t (if negb (strong t) || one_line_return c t then Par t else t).
Proof.
  destruct (strong t) eqn:S; cbn [negb orb].
  - apply strong_spec in S. destruct (one_line_return c t) eqn:B.
    + apply op_par. right. now apply body_spec.
    + apply op_bare; auto. intros X. apply body_spec in X. congruence.
  - apply op_par. left. intros X. apply strong_spec in X. congruence.
Qed.
Lemma argument_spec c : argument c = true <-> an_argument c.
Proof.
  split.
  - induction c as [|f c IH]; [discriminate|]. destruct f as [| | | | | |g|[]|[]| | |]; try discriminate; cbn [argument]; intros H; constructor; auto.
  - induction 1; auto.
Qed.
Lemma weak_spec c : weak_parent c = true <-> wrapped c.
Proof.
  unfold weak_parent, wrapped. destruct (argument c) eqn:A.
  - split; [discriminate|]. intros [_ N]. apply argument_spec in A. contradiction.
  - assert (NA : ~ an_argument c) by (intros X; apply argument_spec in X; congruence). split.
    + destruct c as [|f c]; [discriminate|]. intros H. split; [|exact NA]. exists f, c. split; [reflexivity|].
      destruct f as [|[]|[]| | | | | | | | |]; try discriminate H; first [apply ti_assign|constructor; cbn; auto 10; fail].
    + intros [(f & c' & -> & T) _]. destruct T; try reflexivity. cbn in *. repeat match goal with H : _ \/ _ |- _ => destruct H; [subst; reflexivity|] end. contradiction.
Qed.
Lemma print_if (x : bool) t : (if x then TOpen :: print t ++ [TClose] else print t) = print (if x then Par t else t).
Proof. now destruct x. Qed.
Section Apply.
Variables (sf : list (fix_ tok) -> list (fix_ tok)) (sm : list (msg tok) -> list (msg tok)).
Hypotheses (CF : correct_sort cmp_fix sf) (CM : correct_sort cmp_msg sm).
Lemma apply_node c n x : applied sf sm (print (plug c n)) (mkFix (print x) (pos c) (pos c + size n)) = Ok (print (plug c x)).
Proof. unfold applied. rewrite print_plug. unfold pos, size. rewrite (replaced1 sf sm _ _ _ _ _ CF CM). cbn [rbind fst]. now rewrite print_plug. Qed.
Lemma apply_remove c n t : exists x, operand c t x /\ applied sf sm (print (plug c n)) (wrapping_fix c n t None) = Ok (print (plug c x)).
Proof. eexists. split; [apply operand_spec|]. unfold wrapping_fix. rewrite print_if. apply apply_node. Qed.
Lemma apply_satisfies c n t p : exists x, asserted c t p x /\ applied sf sm (print (plug c n)) (wrapping_fix c n t (Some [TSuf (SSatisfies p)])) = Ok (print (plug c x)).
Proof.
  unfold wrapping_fix. rewrite print_if. set (x := if negb (strong t) || one_line_return c t then Par t else t). assert (O : operand c t x) by apply operand_spec.
  assert (P : weak_parent c && negb (parenthesized c) = weak_parent c). { destruct (weak_parent c) eqn:W; [|reflexivity]. destruct c as [|[] c]; cbn in *; try reflexivity. discriminate. }
  rewrite P. change (print x ++ [TSuf (SSatisfies p)]) with (print (Suf x (SSatisfies p))). destruct (weak_parent c) eqn:W.
  - exists (Par (Suf x (SSatisfies p))). split; [apply as_par; auto; now apply weak_spec|]. apply (apply_node c n (Par (Suf x (SSatisfies p)))).
  - exists (Suf x (SSatisfies p)). split; [apply as_bare; auto; intros X; apply weak_spec in X; congruence|]. apply apply_node.
Qed.
End Apply.
Lemma node_spec type_of enum_member sym c t r : shown type_of enum_member sym c t r -> plug c t = plug (outer r) (node r).
Proof. destruct 1 as [l T|rr N T|x T|name names P prim a N S T A1 A2|t T N1 N2 E|t T|c' t -> T|c' t -> T]; reflexivity. Qed.
(** The texts with a suggestion applied.  The first puts the operand in the place of the conversion, or removes the statement [x += '';]; the second also asserts its type. *)
Theorem C50_text : forall sf sm type_of enum_member builtin_symbol c t r statement,
  correct_sort cmp_fix sf -> correct_sort cmp_msg sm -> reported type_of enum_member builtin_symbol c t = Some r ->
  plug c t = plug (outer r) (node r) /\
  (statement = true /\ c = [] /\ (exists x, t = Pre (UAssign x true) (Atom (AStr []))) /\ applied sf sm (print (plug c t)) (fst (suggestions statement r)) = Ok [] \/
   ~ (statement = true /\ c = [] /\ exists x, t = Pre (UAssign x true) (Atom (AStr []))) /\
   exists x, operand (outer r) (inner r) x /\ applied sf sm (print (plug c t)) (fst (suggestions statement r)) = Ok (print (plug (outer r) x))) /\
  exists x, asserted (outer r) (inner r) (primitive r) x /\ applied sf sm (print (plug c t)) (snd (suggestions statement r)) = Ok (print (plug (outer r) x)).
Proof.
  intros sf sm type_of em sym c t r st CF CM H. apply C50_reports in H. pose proof (node_spec _ _ _ _ _ _ H) as N. split; [exact N|]. split; [|rewrite N; apply apply_satisfies; auto].
  assert (A : assigned r = true <-> exists x, t = Pre (UAssign x true) (Atom (AStr []))). { destruct H; cbn [assigned]; split; try discriminate; try (intros (x0 & E); discriminate E); eauto. }
  assert (O : assigned r = true -> outer r = c) by (destruct H; cbn [assigned outer]; try discriminate; reflexivity).
  unfold suggestions. cbn [fst]. destruct (assigned r) eqn:AS.
  - rewrite (O eq_refl) in *. destruct A as [A _]. destruct (A eq_refl) as (x & E). destruct st.
    + destruct c as [|f c].
      * left. repeat split; eauto. unfold applied. rewrite N. cbn [plug]. unfold pos, size. pose proof (replaced1 sf sm 0 [] (print (node r)) [] [] CF CM) as R. cbn [app] in R. rewrite app_nil_r in R. cbn [before]. rewrite R. reflexivity.
      * right. split; [intros (_ & X & _); discriminate|]. rewrite N. apply apply_remove; auto.
    + right. split; [intros (X & _); discriminate|]. rewrite N. destruct c; apply apply_remove; auto.
  - right. split; [intros (_ & _ & X); apply A in X; discriminate|]. rewrite N. apply apply_remove; auto.
Qed.
Print Assumptions C50_text.

Lemma operand_wf c n t x : operand c t x -> wf t -> wf (plug c n) -> (level n <= 17)%nat -> wf x /\ (17 <= level x)%nat /\ wf (plug c x).
Proof.
  intros O WT W L. assert (X : wf x /\ (17 <= level x)%nat). { destruct O as [BA _|_]; [split; auto; destruct BA; cbn; lia|split; [now constructor|cbn; lia]]. }
  destruct X as [WX LX]. repeat split; auto. apply wf_plug with n; auto. apply fits_high; lia.
Qed.

Lemma in_union l v : (fix any l := match l with [] => False | y :: r => holds y v \/ any r end) l -> exists y, In y l /\ holds y v.
Proof. induction l as [|y l IH]; [intros []|]. intros [H|H]; [exists y; cbn; auto|]. destruct (IH H) as (z & Z & HZ). exists z. cbn. auto. Qed.
Lemma value_part number x t v : object_of number x t -> holds x v -> exists y, part (checked number y) t /\ holds y v.
Proof.
  assert (U : forall i fs l m, In FUnion fs -> (fix any l := match l with [] => False | y :: r => holds y v \/ any r end) l -> exists y, part (checked number y) (Ty i fs [] m (map (checked number) l)) /\ holds y v).
  { intros i fs l m F H. apply in_union in H. destruct H as (y & I & H). exists y. split; [|exact H]. left. split; [exact F|]. cbn [t_parts]. now apply in_map. }
  intros O H. destruct O as [i|x].
  - apply (U i [FBoolean; FUnion] [SBool false; SBool true] None); [cbn; auto|exact H].
  - destruct x; try (eexists; split; [|exact H]; right; split; [cbn; intuition discriminate|reflexivity]).
    apply U; [cbn; auto|exact H].
Qed.
Lemma string_value number x t v : object_of number x t -> string_type t -> holds x v -> exists s, v = Str s.
Proof.
  intros O S H. destruct (value_part number x t v O H) as (y & P & HY). destruct (S _ P) as (f & F & G). cbn [In] in G.
  destruct y; cbn [checked t_flags In holds] in *; eauto; intuition (subst; try discriminate; eauto).
Qed.
Lemma number_value number x t v : object_of number x t -> number_type t -> holds x v -> exists s, v = Num s.
Proof.
  intros O S H. destruct (value_part number x t v O H) as (y & P & HY). destruct (S _ P) as (f & F & G). cbn [In] in G.
  destruct y; cbn [checked t_flags In holds] in *; eauto; intuition (subst; try discriminate; eauto).
Qed.
Lemma boolean_value number x t v : object_of number x t -> boolean_type t -> holds x v -> exists s, v = Bool s.
Proof.
  intros O S H. destruct (value_part number x t v O H) as (y & P & HY). destruct (S _ P) as (f & F & G). cbn [In] in G.
  destruct y; cbn [checked t_flags In holds] in *; eauto; intuition (subst; try discriminate; eauto).
Qed.
Lemma bigint_value number x t v : object_of number x t -> bigint_type t -> holds x v -> exists s, v = Big s.
Proof.
  intros O S H. destruct (value_part number x t v O H) as (y & P & HY). destruct (S _ P) as (f & F & G). cbn [In] in G.
  destruct y; cbn [checked t_flags In holds] in *; eauto; intuition (subst; try discriminate; eauto).
Qed.
Lemma integer_value number x t v : object_of number x t -> integers t -> (forall p, part p t -> exists n, t_text p = integer_text n /\ - 2 ^ 31 <= n < 2 ^ 31) -> holds x v -> exists n, v = Num (integer_text n) /\ - 2 ^ 31 <= n < 2 ^ 31.
Proof.
  intros O [_ S] B H. destruct (value_part number x t v O H) as (y & P & HY). destruct (S _ P) as (F & _). destruct (B _ P) as (n & T & R). exists n. split; [|exact R]. rewrite <- T.
  destruct y; cbn [checked t_flags t_text In holds] in *; auto; intuition (subst; try discriminate; eauto).
Qed.
Inductive function_name : bstr -> builtin -> Prop :=
| fn_string : function_name (b "String") StringF | fn_number : function_name (b "Number") NumberF | fn_boolean : function_name (b "Boolean") BooleanF | fn_bigint : function_name (b "BigInt") BigIntF.
Section Values.
Context {state : Type}.
Variable atom_value : atom -> state -> option value * state.
Variable function : builtin -> Z.
Variable read : bstr -> state -> option value * state.
Variable write : bstr -> value -> state -> option value * state.
Variable prefix_value : prefix -> (state -> option value * state) -> state -> option value * state.
Variable suffix_value : suffix -> value -> state -> option value * state.
Variable binary_value : binop -> value -> value -> state -> option value * state.
Variable property : value -> bstr -> state -> option value * state.
Variable call : Z -> value -> option value -> state -> option value * state.
Variable other_bit_not : value -> state -> option value * state.
Variable convert : builtin -> value -> state -> option value * state.
Notation ev := (eval atom_value function read write prefix_value suffix_value binary_value property call other_bit_not convert).
(** Nothing else is known of the operators than that they depend on what their operand does. *)
Definition extensional : Prop := forall u m n, (forall s, m s = n s) -> forall s, prefix_value u m s = prefix_value u n s.
(** The checker is right about an expression: it has a type, [object_of] of which is the type object, and only values of that type. *)
Definition typed (number : sty -> Z) (type_of : tree -> ty) (e : tree) : Prop :=
  exists x, object_of number x (type_of e) /\ forall s v this s', ev e s = (Some (v, this), s') -> holds x v.
(** A name of the library stands for that function, and different functions are different objects. *)
Definition names_function (name : bstr) : Prop := forall k, function_name name k -> forall s, read name s = (Some (Obj (function k)), s).
Definition different : Prop := forall j k, function j = function k -> j = k.
(** An ordinary variable: to assign what it has already changes nothing. *)
Definition ordinary (x : bstr) : Prop := forall s v s', read x s = (Some v, s') -> write x v s' = (Some v, s').
(** The premises for each conversion. *)
Definition sound (number : sty -> Z) (type_of : tree -> ty) (r : report) : Prop :=
  typed number type_of (inner r) /\
  match node r with
  | Call (Atom (AId name)) _ => names_function name
  | Pre (UAssign x _) _ => ordinary x
  | Pre UTilde _ => forall p, part p (type_of (inner r)) -> exists n, t_text p = integer_text n /\ - 2 ^ 31 <= n < 2 ^ 31
  | _ => True
  end.

Hypothesis distinct : different.
Lemma same_value number type_of enum_member sym c t r x : shown type_of enum_member sym c t r -> sound number type_of r -> operand (outer r) (inner r) x ->
  forall s, alike (ev x s) (ev (node r) s).
Proof.
  intros H [(y & OY & HY) PR] O s.
  assert (E : ev x s = ev (inner r) s) by (destruct O; reflexivity). rewrite E. clear E x O.
  pose proof (fun v this s' => HY s v this s') as HV.
  assert (DJ : forall j k, j <> k -> (function j =? function k) = false) by (intros j k N; apply Z.eqb_neq; intros X; apply N, distinct, X).
  destruct H as [l T|rr N T|x T|name names P prim a N S T A1 A2|t T N1 N2 E|t T|c' t -> T|c' t -> T]; cbn [inner node] in *.
  - cbn [eval empty_string]. destruct (ev l s) as [[[v this]|] s'] eqn:V; [|apply alike_refl]. destruct (string_value _ _ _ _ OY T (HV _ _ _ eq_refl)) as (w & ->). cbn. rewrite app_nil_r. split; cbn; auto. split; auto. right. discriminate.
  - cbn [eval empty_string]. destruct (ev rr s) as [[[v this]|] s'] eqn:V; [|apply alike_refl]. destruct (string_value _ _ _ _ OY T (HV _ _ _ eq_refl)) as (w & ->). cbn. split; cbn; auto. split; auto. right. discriminate.
  - cbn [eval empty_string] in *. destruct (read x s) as [[v|] s'] eqn:V; [|apply alike_refl]. cbn [plain option_map fst snd] in *. destruct (string_value _ _ _ _ OY T (HV _ _ _ eq_refl)) as (w & ->). cbn [binary]. rewrite app_nil_r. rewrite (PR _ _ _ V). cbn. split; cbn; auto.
  - destruct N; cbn [eval]; (rewrite (PR _ ltac:(constructor))); cbn [plain option_map fst snd]; (destruct (ev a s) as [[[v this]|] s'] eqn:V; [|apply alike_refl]); unfold invoke; rewrite !DJ by discriminate; rewrite ?Z.eqb_refl.
    + destruct (bigint_value _ _ _ _ OY T (HV _ _ _ eq_refl)) as (w & ->). cbn. split; cbn; auto. split; auto. right. discriminate.
    + destruct (boolean_value _ _ _ _ OY T (HV _ _ _ eq_refl)) as (w & ->). cbn. split; cbn; auto. split; auto. right. discriminate.
    + destruct (number_value _ _ _ _ OY T (HV _ _ _ eq_refl)) as (w & ->). cbn. split; cbn; auto. split; auto. right. discriminate.
    + destruct (string_value _ _ _ _ OY T (HV _ _ _ eq_refl)) as (w & ->). cbn. split; cbn; auto. split; auto. right. discriminate.
  - cbn [eval]. destruct (ev t s) as [[[v this]|] s'] eqn:V; [|apply alike_refl]. destruct (string_value _ _ _ _ OY T (HV _ _ _ eq_refl)) as (w & ->). unfold get. rewrite beqb_refl. unfold invoke. rewrite Z.eqb_refl. cbn. split; cbn; auto. split; auto. right. discriminate.
  - cbn [eval]. destruct (ev t s) as [[[v this]|] s'] eqn:V; [|apply alike_refl]. destruct (number_value _ _ _ _ OY T (HV _ _ _ eq_refl)) as (w & ->). cbn. split; cbn; auto. split; auto. right. discriminate.
  - cbn [eval]. destruct (ev t s) as [[[v this]|] s'] eqn:V; [|apply alike_refl]. destruct (boolean_value _ _ _ _ OY T (HV _ _ _ eq_refl)) as (w & ->). cbn. split; cbn; auto. split; [now destruct w|]. right. discriminate.
  - cbn [eval]. destruct (ev t s) as [[[v this]|] s'] eqn:V; [|apply alike_refl]. destruct (integer_value _ _ _ _ OY T PR (HV _ _ _ eq_refl)) as (n & -> & R).
    assert (BN : forall m s, - 2 ^ 31 <= m < 2 ^ 31 -> bit_not other_bit_not (Num (integer_text m)) s = (Some (Num (integer_text (Z.lnot m))), s)).
    { intros m z M. unfold bit_not. rewrite integer_of_text. rewrite (proj2 (Z.leb_le _ _)) by (change (2 ^ 53) with (4194304 * 2 ^ 31); lia). now rewrite int32_small. }
    cbn [unary]. rewrite (BN n) by exact R. cbn [plain option_map fst snd]. rewrite (BN (Z.lnot n)) by (apply lnot_small; exact R). cbn [plain option_map fst snd]. rewrite Z.lnot_involutive. split; cbn; auto. split; auto. right. discriminate.
Qed.
Lemma inner_wf type_of enum_member sym c t r : shown type_of enum_member sym c t r -> wf (plug c t) -> wf (plug (outer r) (node r)) /\ wf (inner r) /\ (level (node r) <= 17)%nat.
Proof.
  intros H W. rewrite (node_spec _ _ _ _ _ _ H) in W. split; [exact W|]. pose proof (wf_hole _ _ W) as WN.
  destruct H as [l T|rr N T|x T|name names P prim a N S T A1 A2|t T N1 N2 E|t T|c' t -> T|c' t -> T]; cbn [inner node] in *; (split; [|cbn; lia]); inversion WN; subst; auto; try (constructor; fail);
    match goal with X : wf (Pre _ _) |- _ => inversion X; auto | X : wf (Member _ _) |- _ => inversion X; auto end.
Qed.
Hypothesis ext : extensional.
(** The text after the first suggestion is an expression that does the same and has the same value. *)
Theorem C50_remove : forall sf sm number type_of enum_member builtin_symbol c t r statement, correct_sort cmp_fix sf -> correct_sort cmp_msg sm ->
  reported type_of enum_member builtin_symbol c t = Some r -> wf (plug c t) -> sound number type_of r ->
  ~ (statement = true /\ c = [] /\ exists x, t = Pre (UAssign x true) (Atom (AStr []))) ->
  exists new, applied sf sm (print (plug c t)) (fst (suggestions statement r)) = Ok (print new) /\ reads (print new) new /\ forall s, alike (ev new s) (ev (plug c t) s).
Proof.
  intros sf sm number type_of em sym c t r st CF CM H W SO NS. destruct (C50_text sf sm _ _ _ _ _ _ st CF CM H) as (N & [(S1 & S2 & S3 & _)|(_ & x & O & A)] & _); [destruct NS; auto|].
  apply C50_reports in H. destruct (inner_wf _ _ _ _ _ _ H W) as (WN & WI & L). destruct (operand_wf _ _ _ _ O WI WN L) as (_ & _ & WX).
  exists (plug (outer r) x). split; [exact A|]. split; [now apply reads_print|]. intros s. rewrite N. apply alike_plug; [exact ext|]. eapply same_value; eauto.
Qed.
(** A statement that is removed does nothing, if the variable can be read. *)
Theorem C50_statement : forall sf sm number type_of enum_member builtin_symbol x r, correct_sort cmp_fix sf -> correct_sort cmp_msg sm ->
  let t := Pre (UAssign x true) (Atom (AStr [])) in
  reported type_of enum_member builtin_symbol [] t = Some r -> sound number type_of r -> (forall s, exists v, read x s = (Some v, s)) ->
  applied sf sm (print t) (fst (suggestions true r)) = Ok [] /\ forall s, exists v, ev t s = (Some (v, Undefined), s).
Proof.
  intros sf sm number type_of em sym x r CF CM t H SO RD. destruct (C50_text sf sm _ _ _ _ _ _ true CF CM H) as (N & [(S1 & S2 & S3 & A)|(X & _)] & _); [|destruct X; unfold t; eauto]. split; [exact A|].
  intros s. apply C50_reports in H. unfold t in H. inversion H as [| |y T| | | | |]; subst. destruct SO as [(y & OY & HY) PR]. cbn [inner node] in *. destruct (RD s) as (v & V). specialize (HY s v Undefined s). cbn [eval] in HY. rewrite V in HY.
  destruct (string_value _ _ _ _ OY T (HY eq_refl)) as (w & ->). exists (Str w). unfold t. cbn [eval]. rewrite V. cbn [binary]. rewrite app_nil_r. rewrite (PR _ _ _ V). reflexivity.
Qed.
Lemma satisfies_wf c n t p x : asserted c t p x -> wf t -> wf (plug c n) -> (level n <= 17)%nat -> (forall c', c <> FSuf SNonNull :: c') -> (forall c', c <> FPre UTypeof :: c') -> (forall c', c <> FPre UVoid :: c') -> wf (plug c x).
Proof.
  intros A WT W L N1 N2 N3. destruct A as [x O NW|x O NW]; destruct (operand_wf _ _ _ _ O WT W L) as (WX & LX & _).
  - assert (WS : wf (Suf x (SSatisfies p))) by (constructor; [exact WX|cbn; lia]). destruct c as [|f c]; [exact WS|]. cbn [plug] in *. apply (wf_plug c (put f n)); [exact W| |apply fits_put]. apply wf_hole in W.
    assert (NT : ~ tight f \/ an_argument (f :: c)). { destruct (argument (f :: c)) eqn:AR; [right; now apply argument_spec|]. left. intros T. apply NW. split; [eauto|]. intros X. apply argument_spec in X. congruence. }
    destruct f as [|u|u|m| |a|g|o r0|o l0|a e|a e|a e]; cbn [put] in *; try (inversion W; subst; constructor; auto; cbn in *; lia);
      try (destruct NT as [NT|AA]; [destruct NT; constructor; fail|inversion AA; fail]).
    + destruct u; try (inversion W; subst; constructor; auto; cbn in *; lia); try (destruct NT as [NT|AA]; [destruct NT; constructor; cbn; auto 10; fail|inversion AA; fail]).
      * now destruct (N2 c).
      * now destruct (N3 c).
    + destruct u; try (destruct NT as [NT|AA]; [destruct NT; constructor; fail|inversion AA; fail]); try (constructor; auto; cbn; lia). now destruct (N1 c).
    + destruct NT as [NT|AA]; [destruct NT; constructor|]. inversion AA; subst. inversion W; subst. constructor; auto.
    + destruct NT as [NT|AA]; [destruct NT; constructor|]. inversion AA; subst. inversion W; subst. constructor; auto. cbn. lia.
  - apply (wf_plug c n); [exact W|constructor; constructor; [exact WX|cbn; lia]|]. apply fits_high; cbn; lia.
Qed.
(** The same for the second suggestion, except after a [typeof], a [void] and before a [!]. *)
Theorem C50_satisfies : forall sf sm number type_of enum_member builtin_symbol c t r statement, correct_sort cmp_fix sf -> correct_sort cmp_msg sm ->
  reported type_of enum_member builtin_symbol c t = Some r -> wf (plug c t) -> sound number type_of r ->
  (forall c', outer r <> FSuf SNonNull :: c') -> (forall c', outer r <> FPre UTypeof :: c') -> (forall c', outer r <> FPre UVoid :: c') ->
  exists new, applied sf sm (print (plug c t)) (snd (suggestions statement r)) = Ok (print new) /\ reads (print new) new /\
    (exists x, new = plug (outer r) x /\ (x = Suf (inner r) (SSatisfies (primitive r)) \/ x = Suf (Par (inner r)) (SSatisfies (primitive r)) \/
      x = Par (Suf (inner r) (SSatisfies (primitive r))) \/ x = Par (Suf (Par (inner r)) (SSatisfies (primitive r))))) /\
    forall s, alike (ev new s) (ev (plug c t) s).
Proof.
  intros sf sm number type_of em sym c t r st CF CM H W SO N1 N2 N3. destruct (C50_text sf sm _ _ _ _ _ _ st CF CM H) as (N & _ & x & AS & A).
  apply C50_reports in H. destruct (inner_wf _ _ _ _ _ _ H W) as (WN & WI & L). pose proof (satisfies_wf _ _ _ _ _ AS WI WN L N1 N2 N3) as WX.
  exists (plug (outer r) x). split; [exact A|]. split; [now apply reads_print|]. split; [exists x; split; auto; destruct AS as [x O _|x O _]; destruct O; auto|]. intros s. rewrite N. apply alike_plug; [exact ext|]. intros z.
  destruct AS as [x O _|x O _]; cbn [eval]; eapply same_value; eauto.
Qed.
End Values.
Print Assumptions C50_remove.
Print Assumptions C50_statement.
Print Assumptions C50_satisfies.

(** ** Examples *)
Definition sample_function (k : builtin) : Z := match k with BigIntF => 1 | BooleanF => 2 | NumberF => 3 | StringF => 4 | StringToString => 5 end.
Definition sample_atom (a : atom) (s : unit) : option value * unit := match a with ANum x => (Some (Num x), s) | ABool v => (Some (Bool v), s) | _ => (Some Undefined, s) end.
Definition sample_read (x : bstr) (s : unit) : option value * unit :=
  (Some (if beqb x (b "String") then Obj 4 else if beqb x (b "Number") then Obj 3 else if beqb x (b "Boolean") then Obj 2 else if beqb x (b "BigInt") then Obj 1
         else if beqb x (b "n") then Num [55] else Str [97]), s).
Notation sample := (eval sample_atom sample_function sample_read (fun _ v s => (Some v, s)) (fun _ m s => m s) (fun _ v s => (Some v, s)) (fun _ v _ s => (Some v, s)) (fun v _ s => (Some v, s)) (fun _ v _ s => (Some v, s))
  (fun v s => (Some v, s)) (fun _ v s => (Some v, s))).
Definition sample_number (_ : sty) : Z := 0.
Definition sample_sty (t : tree) : sty := match t with Atom (ANum s) => SNum s | Atom (ABool v) => SBool v | Atom (AId x) => if beqb x (b "n") then SNumber else SString | Atom (AStr s) => SStr s | Bin OPlus _ _ => SString | _ => SAny end.
Definition sample_type (t : tree) : ty := checked sample_number (sample_sty t).
Notation sample_report := (reported sample_type (fun _ => false) (fun _ _ => true)).
Definition id (s : String.string) : tree := Atom (AId (b s)).
(** [-String(a + b)] becomes [-(a + b)] or [-((a + b) satisfies string)]. *)
Example C50_sample :
  exists r, sample_report [FPre UMinus] (Call (id "String") (Bin OPlus (id "a") (id "c"))) = Some r /\ conv r = (1, 2) /\ expr_range r = (3, 6) /\
  applied fsort msort (print (Pre UMinus (Call (id "String") (Bin OPlus (id "a") (id "c"))))) (fst (suggestions true r)) = Ok (print (Pre UMinus (Par (Bin OPlus (id "a") (id "c"))))) /\
  applied fsort msort (print (Pre UMinus (Call (id "String") (Bin OPlus (id "a") (id "c"))))) (snd (suggestions true r)) = Ok (print (Pre UMinus (Par (Suf (Par (Bin OPlus (id "a") (id "c"))) (SSatisfies (b "string")))))).
Proof. eexists. split; [vm_compute; reflexivity|]. repeat split; vm_compute; reflexivity. Qed.
Example C50_sample_statement : exists r, sample_report [] (Pre (UAssign (b "x") true) (Atom (AStr []))) = Some r /\
  applied fsort msort (print (Pre (UAssign (b "x") true) (Atom (AStr [])))) (fst (suggestions true r)) = Ok [] /\
  applied fsort msort (print (Pre (UAssign (b "x") true) (Atom (AStr [])))) (fst (suggestions false r)) = Ok (print (id "x")).
Proof. eexists. split; [vm_compute; reflexivity|]. repeat split; vm_compute; reflexivity. Qed.
(** [~~] of an integer, not of a half or of any number; an infinity counts as an integer. *)
Example C50_sample_bits : (exists r, sample_report [FPre UTilde] (Pre UTilde (Atom (ANum [49; 50]))) = Some r) /\ sample_report [FPre UTilde] (Pre UTilde (Atom (ANum [49; 46; 53]))) = None /\
  sample_report [FPre UTilde] (Pre UTilde (id "n")) = None /\ (exists r, sample_report [FPre UTilde] (Pre UTilde (Atom (ANum infinity))) = Some r) /\ sample_report [] (Pre UTilde (Atom (ANum [49; 50]))) = None.
Proof. repeat split; try (eexists; vm_compute; reflexivity); vm_compute; reflexivity. Qed.
(** The premises of C50_remove hold for the sample. *)
Example C50_sample_sound : forall r, sample_report [FPre UMinus] (Call (id "String") (Bin OPlus (id "a") (id "c"))) = Some r ->
  sound sample_atom sample_function sample_read (fun _ v s => (Some v, s)) (fun _ m s => m s) (fun _ v s => (Some v, s)) (fun _ v _ s => (Some v, s)) (fun v _ s => (Some v, s)) (fun _ v _ s => (Some v, s))
    (fun v s => (Some v, s)) (fun _ v s => (Some v, s)) sample_number sample_type r.
Proof.
  intros r H. vm_compute in H. injection H as <-. split.
  - exists SString. split; [apply oo_other|]. intros s v this s' H. vm_compute in H. injection H as <- _ _. cbn. eauto.
  - cbn [node]. intros k F s. inversion F; subst; try reflexivity; vm_compute; reflexivity.
Qed.

(** ** What goes wrong *)
(** [~~4294967296] is 0: the message is wrong and removing the operators changes the value. *)
Theorem C50_bits_refuted : exists t r new, sample_report [FPre UTilde] t = Some r /\ wf (plug [FPre UTilde] t) /\
  typed sample_atom sample_function sample_read (fun _ v s => (Some v, s)) (fun _ m s => m s) (fun _ v s => (Some v, s)) (fun _ v _ s => (Some v, s)) (fun v _ s => (Some v, s)) (fun _ v _ s => (Some v, s))
    (fun v s => (Some v, s)) (fun _ v s => (Some v, s)) sample_number sample_type (inner r) /\
  applied fsort msort (print (plug [FPre UTilde] t)) (fst (suggestions true r)) = Ok (print new) /\ reads (print new) new /\
  fst (sample (plug [FPre UTilde] t) tt) = Some (Num [48], Undefined) /\ fst (sample new tt) = Some (Num (integer_text 4294967296), Undefined).
Proof.
  exists (Pre UTilde (Atom (ANum (integer_text 4294967296)))). eexists. exists (Atom (ANum (integer_text 4294967296))). split; [vm_compute; reflexivity|]. split; [repeat constructor; cbn; lia|]. split.
  - exists (SNum (integer_text 4294967296)). split; [apply oo_other|]. intros s v this s' H. vm_compute in H. injection H as <- _ _. vm_compute. reflexivity.
  - split; [vm_compute; reflexivity|]. split; [apply reads_print; constructor|]. split; vm_compute; reflexivity.
Qed.
Print Assumptions C50_bits_refuted.
(** [String(x)!] becomes [x satisfies string!], which is no expression. *)
Theorem C50_nonnull_refuted : exists c t r ts, sample_report c t = Some r /\ wf (plug c t) /\ applied fsort msort (print (plug c t)) (snd (suggestions true r)) = Ok ts /\ forall new, ~ reads ts new.
Proof.
  exists [FSuf SNonNull], (Call (id "String") (id "x")). eexists. eexists. split; [vm_compute; reflexivity|]. split; [repeat constructor; cbn; lia|]. split; [vm_compute; reflexivity|].
  intros new [f H]. do 4 (destruct f as [|f]; [discriminate H|]). vm_compute in H. discriminate H.
Qed.
Print Assumptions C50_nonnull_refuted.
(** [typeof Number(n)] becomes [typeof n satisfies number], which asserts that the result of [typeof] is a number. *)
Theorem C50_typeof_refuted : exists c t r new, sample_report c t = Some r /\ wf (plug c t) /\ outer r = [FPre UTypeof] /\ inner r = id "n" /\
  applied fsort msort (print (plug c t)) (snd (suggestions true r)) = Ok (print new) /\ reads (print new) new /\ new = Suf (Pre UTypeof (id "n")) (SSatisfies (b "number")).
Proof.
  exists [FPre UTypeof], (Call (id "Number") (id "n")). eexists. exists (Suf (Pre UTypeof (id "n")) (SSatisfies (b "number"))). split; [vm_compute; reflexivity|]. split; [repeat constructor; cbn; lia|].
  split; [reflexivity|]. split; [reflexivity|]. split; [vm_compute; reflexivity|]. split; [|reflexivity]. apply reads_print. repeat constructor; cbn; lia.
Qed.
Print Assumptions C50_typeof_refuted.
(** Tokens as they are written without spaces. *)
Definition spell (t : tok) : bstr :=
  match t with
  | TAtom (AId x) => x | TAtom (ANum s) => map (fun c => ascii_of_nat (Z.to_nat c)) s | TOpen => b "(" | TClose => b ")" | TDot => b "." | TName n => n
  | TPre UTypeof => b "typeof" | TPre UNot => b "!" | TPre UPlus => b "+" | _ => b "?"
  end.
Definition spelled (ts : list tok) : bstr := concat (map spell ts).
(** [typeof+n] becomes one name, and after [Number(1)] the dot belongs to the number. *)
Theorem C50_glued_refuted :
  (exists c t r ts, sample_report c t = Some r /\ wf (plug c t) /\ spelled (print (plug c t)) = b "typeof+n" /\ applied fsort msort (print (plug c t)) (fst (suggestions true r)) = Ok ts /\ spelled ts = b "typeofn") /\
  (exists c t r ts, sample_report c t = Some r /\ wf (plug c t) /\ spelled (print (plug c t)) = b "Number(1).toFixed()" /\ applied fsort msort (print (plug c t)) (fst (suggestions true r)) = Ok ts /\ spelled ts = b "1.toFixed()").
Proof.
  split.
  - exists [FPre UTypeof], (Pre UPlus (id "n")). eexists. eexists. split; [vm_compute; reflexivity|]. split; [repeat constructor; cbn; lia|]. repeat split; vm_compute; reflexivity.
  - exists [FMember (b "toFixed"); FCallee0], (Call (id "Number") (Atom (ANum [49]))). eexists. eexists. split; [vm_compute; reflexivity|]. split; [repeat constructor; cbn; lia|]. repeat split; vm_compute; reflexivity.
Qed.
Print Assumptions C50_glued_refuted.
(** Statements with their semicolons, and [if] before one. *)
Inductive stok := KIf (c : tree) | KDo (e : tree).
Inductive stmt := Do (e : tree) | If (c : tree) (s : stmt).
Fixpoint program (ts : list stok) : option (list stmt) :=
  match ts with
  | [] => Some []
  | KDo e :: ts => option_map (cons (Do e)) (program ts)
  | KIf c :: ts => match program ts with Some (s :: l) => Some (If c s :: l) | _ => None end
  end.
(** Without the statement in [if (c) x += ''; f();] the [if] is one of [f()]. *)
Theorem C50_if_refuted : exists x r l1 l2 c f, let t := Pre (UAssign x true) (Atom (AStr [])) in
  sample_report [] t = Some r /\ applied fsort msort (print t) (fst (suggestions true r)) = Ok [] /\
  program (l1 ++ [KDo t] ++ l2) = Some [If c (Do t); Do f] /\ program (l1 ++ l2) = Some [If c (Do f)].
Proof.
  exists (b "x"). eexists. exists [KIf (id "c")], [KDo (Call0 (id "f"))], (id "c"), (Call0 (id "f")). split; [vm_compute; reflexivity|]. repeat split; vm_compute; reflexivity.
Qed.
Print Assumptions C50_if_refuted.
