(** C30: single-quoted literals in suggestions. *)
From Coq Require Import String Ascii Bool List ZArith Lia.
From Verif Require Import Base Utf8 JsText JsTextProofs Utf8Proofs Quote.
Import ListNotations.
Open Scope Z_scope.

(** A hexadecimal digit as a code point. *)
Definition hx (d : Z) : Z := if d <? 10 then 48 + d else 55 + d.
Lemma hex_digit_bz d : 0 <= d < 16 -> bz (hex_digit d) = hx d.
Proof. intros H. unfold hex_digit, hx. destruct (Z.ltb_spec d 10); rewrite bz_zb; lia. Qed.
Lemma hx_ok d : 0 <= d < 16 -> hexd (hx d) d.
Proof.
  intros H. unfold hx. destruct (Z.ltb_spec d 10).
  - replace d with (48 + d - 48) at 2 by lia. constructor. lia.
  - replace d with (55 + d - 55) at 2 by lia. constructor. lia.
Qed.
Lemma hx_small d : 0 <= d < 16 -> hx d < 128.
Proof. unfold hx. destruct (Z.ltb_spec d 10); lia. Qed.

Lemma unicode_escape_ok ch : 0 <= ch < 65536 ->
  map bz (unicode_escape ch) =
    [92; 117; hx (ch / 4096); hx (ch / 256 mod 16); hx (ch / 16 mod 16); hx (ch mod 16)].
Proof.
  intros R. unfold unicode_escape.
  assert (Z0 : bz "0"%char = hx 0) by reflexivity.
  assert (F : forall n z, format_hex (S n) z = if z <? 16 then [hex_digit z] else format_hex n (z / 16) ++ [hex_digit (z mod 16)]) by reflexivity.
  assert (D : (ch / 16) / 16 = ch / 256 /\ ch / 256 / 16 = ch / 4096) by (rewrite !Z.div_div by lia; auto). destruct D as [D1 D2].
  rewrite !F.
  destruct (Z.ltb_spec ch 16).
  { cbn [List.length repeat Nat.sub app map b]. rewrite hex_digit_bz by lia.
    replace (ch / 4096) with 0 by zdm. replace (ch / 256 mod 16) with 0 by zdm. replace (ch / 16 mod 16) with 0 by zdm.
    replace (ch mod 16) with ch by zdm. rewrite !Z0. reflexivity. }
  destruct (Z.ltb_spec (ch / 16) 16).
  { cbn [List.length repeat Nat.sub app map b]. rewrite !hex_digit_bz by zdm.
    replace (ch / 4096) with 0 by zdm. replace (ch / 256 mod 16) with 0 by zdm. replace (ch / 16 mod 16) with (ch / 16) by zdm.
    rewrite !Z0. reflexivity. }
  rewrite D1. destruct (Z.ltb_spec (ch / 256) 16).
  { cbn [List.length repeat Nat.sub app map b]. rewrite !hex_digit_bz by zdm.
    replace (ch / 4096) with 0 by zdm. replace (ch / 256 mod 16) with (ch / 256) by zdm.
    rewrite !Z0. reflexivity. }
  rewrite D2. destruct (Z.ltb_spec (ch / 4096) 16); [|exfalso; zdm].
  cbn [List.length repeat Nat.sub app map b]. rewrite !hex_digit_bz by zdm. reflexivity.
Qed.

(** The escapes as code points. *)
Definition quote_cp (ch : Z) : list Z :=
  if ch =? 9 then [92; 116]
  else if ch =? 11 then [92; 118]
  else if ch =? 12 then [92; 102]
  else if ch =? 8 then [92; 98]
  else if ch =? 13 then [92; 114]
  else if ch =? 10 then [92; 110]
  else if ch =? 92 then [92; 92]
  else if ch =? 39 then [92; 39]
  else if (ch =? 8232) || (ch =? 8233) || (ch =? 133) || (ch <=? 31)
  then [92; 117; hx (ch / 4096); hx (ch / 256 mod 16); hx (ch / 16 mod 16); hx (ch mod 16)]
  else [ch].

Lemma ascii_runes s l t : map bz s = l -> Forall (fun c => c < 128) l -> runes (s ++ t) = l ++ runes t.
Proof. intros <- H. apply runes_ascii. now apply Forall_map in H. Qed.

Lemma quote_rune_runes ch t : scalar ch -> runes (quote_rune ch ++ t) = quote_cp ch ++ runes t.
Proof.
  intros SC. unfold quote_rune, quote_cp.
  repeat match goal with |- context[ch =? ?n] =>
    lazymatch n with 8232 => fail | 8233 => fail | 133 => fail | _ => destruct (Z.eqb_spec ch n) end end;
    try (apply ascii_runes; [reflexivity|repeat constructor]).
  assert (U : 0 <= ch < 65536 -> runes (unicode_escape ch ++ t) =
     [92; 117; hx (ch / 4096); hx (ch / 256 mod 16); hx (ch / 16 mod 16); hx (ch mod 16)] ++ runes t).
  { intros R. apply ascii_runes; [now apply unicode_escape_ok|].
    repeat (apply Forall_cons; [first [lia | apply hx_small; zdm]|]). apply Forall_nil. }
  destruct ((ch =? 8232) || (ch =? 8233) || (ch =? 133)) eqn:E; cbn [orb].
  - apply U. rewrite !orb_true_iff, !Z.eqb_eq in E. lia.
  - destruct (Z.leb_spec ch 31); [apply U; destruct SC; lia|]. now apply runes_enc.
Qed.

Lemma quote_runes cs t : Forall scalar cs -> runes (flat_map quote_rune cs ++ t) = flat_map quote_cp cs ++ runes t.
Proof.
  induction 1 as [|c cs SC F IH]; [reflexivity|]. cbn [flat_map]. rewrite <- !app_assoc, quote_rune_runes by auto. now rewrite IH.
Qed.
Lemma quote_text s : runes (quote_single s) = 39 :: flat_map quote_cp (runes s) ++ [39].
Proof.
  unfold quote_single. rewrite (ascii_runes (b "'") [39]); [|reflexivity|repeat constructor].
  cbn [app]. f_equal. rewrite quote_runes by apply runes_scalar. reflexivity.
Qed.

Lemma quote_cp_chars strict ch r v : scalar ch -> chars (Str 39 strict) r v -> chars (Str 39 strict) (quote_cp ch ++ r) (units ch ++ v).
Proof.
  intros SC C. unfold quote_cp.
  repeat match goal with |- context[ch =? ?n] =>
    lazymatch n with 8232 => fail | 8233 => fail | 133 => fail | _ =>
      destruct (Z.eqb_spec ch n); [subst ch; apply (c_esc _ [_]); [constructor; constructor|auto]|] end end.
  destruct ((ch =? 8232) || (ch =? 8233) || (ch =? 133) || (ch <=? 31)) eqn:E.
  - assert (R : 0 <= ch < 65536).
    { rewrite !orb_true_iff, !Z.eqb_eq, Z.leb_le in E. destruct SC; lia. }
    apply (c_esc _ [117; hx (ch / 4096); hx (ch / 256 mod 16); hx (ch / 16 mod 16); hx (ch mod 16)]); [|auto].
    unfold units. rewrite (proj2 (Z.ltb_lt ch 65536)) by lia. constructor.
    repeat (econstructor; [apply hx_ok; zdm|]). 
    replace ch with ((((0 * 16 + ch / 4096) * 16 + ch / 256 mod 16) * 16 + ch / 16 mod 16) * 16 + ch mod 16) at 5 by zdm. constructor.
  - rewrite !orb_false_iff, !Z.eqb_neq, Z.leb_gt in E. apply (c_plain _ ch r v); [|auto]. repeat split; lia.
Qed.

(** The literal made from a text is a complete string literal, in strict and in sloppy code,
    and its value is the text. *)
Theorem C30_literal_evaluates_to_text :
  forall strict cs, Forall scalar cs ->
    exists src, Forall scalar src /\ quote_single (flat_map enc cs) = flat_map enc src /\
      string_literal strict src (flat_map units cs).
Proof.
  intros strict cs SC.
  assert (R : runes (flat_map enc cs) = cs).
  { pose proof (runes_encs cs [] SC) as H. rewrite !app_nil_r in H. exact H. }
  assert (HXS : forall d, 0 <= d < 16 -> scalar (hx d)).
  { intros d Hd. left. unfold hx. destruct (Z.ltb_spec d 10); lia. }
  assert (SCP : forall c, scalar c -> Forall scalar (quote_cp c)).
  { intros c Hc. unfold quote_cp.
    repeat match goal with |- context[if ?x then _ else _] => destruct x eqn:? end;
      try solve [repeat (apply Forall_cons; [left; lia|]); apply Forall_nil];
      [|apply Forall_cons; [auto|apply Forall_nil]].
    assert (R' : 0 <= c < 65536).
    { rewrite !orb_true_iff, !Z.eqb_eq, Z.leb_le in *. destruct Hc; lia. }
    repeat (apply Forall_cons; [first [left; lia|apply HXS; zdm]|]). apply Forall_nil. }
  exists (39 :: flat_map quote_cp cs ++ [39]). split; [|split].
  - constructor; [left; lia|]. apply Forall_app. split; [|repeat (apply Forall_cons; [left; lia|]); apply Forall_nil].
    clear R. induction SC; [constructor|]. cbn [flat_map]. apply Forall_app. auto.
  - unfold quote_single. rewrite R. cbn [flat_map]. rewrite flat_map_app. change (enc 39) with (b "'").
    f_equal. f_equal. clear R. induction SC as [|c cs Hc SC IH]; [reflexivity|].
    cbn [flat_map]. rewrite flat_map_app, IH. f_equal.
    unfold quote_rune, quote_cp.
    repeat match goal with |- context[c =? ?n] =>
      lazymatch n with 8232 => fail | 8233 => fail | 133 => fail | _ => destruct (Z.eqb_spec c n); [reflexivity|] end end.
    assert (U : 0 <= c < 65536 -> unicode_escape c =
       flat_map enc [92; 117; hx (c / 4096); hx (c / 256 mod 16); hx (c / 16 mod 16); hx (c mod 16)]).
    { intros R'. pose proof (unicode_escape_ok c R') as UE.
      assert (I : forall s l, map bz s = l -> Forall (fun c => 0 <= c < 128) l -> s = flat_map enc l).
      { intros s l <- H. clear -H. induction s as [|x s IH]; [reflexivity|]. cbn [map flat_map].
        inversion H as [|? ? H1 H2]; subst. rewrite <- IH by auto. unfold enc at 1.
        rewrite (proj2 (Z.leb_le 0 (bz x))), (proj2 (Z.ltb_lt (bz x) 128)) by lia. cbn [andb app]. now rewrite zb_bz. }
      apply I; [auto|].
      assert (HB : forall d, 0 <= d < 16 -> 0 <= hx d < 128) by (intros d Hd; unfold hx; destruct (Z.ltb_spec d 10); lia).
      repeat (apply Forall_cons; [first [lia|apply HB; zdm]|]). apply Forall_nil. }
    destruct ((c =? 8232) || (c =? 8233) || (c =? 133)) eqn:E; cbn [orb].
    + apply U. rewrite !orb_true_iff, !Z.eqb_eq in E. lia.
    + destruct (Z.leb_spec c 31); [apply U; destruct Hc; lia|]. cbn [flat_map]. now rewrite app_nil_r.
  - exists 39, (flat_map quote_cp cs). split; [auto|]. split; [reflexivity|].
    clear R. induction SC as [|c cs Hc SC IH]; [constructor|]. cbn [flat_map]. apply quote_cp_chars; auto.
Qed.
Print Assumptions C30_literal_evaluates_to_text.

(** Also for text that is not valid UTF-8 the result is a complete literal; its value is
    the text as Go decodes it. *)
Theorem C30_literal_is_always_complete :
  forall strict s, string_literal strict (runes (quote_single s)) (flat_map units (runes s)).
Proof.
  intros strict s. rewrite quote_text. exists 39, (flat_map quote_cp (runes s)).
  split; [auto|]. split; [reflexivity|].
  induction (runes_scalar s) as [|c cs Hc SC IH]; [constructor|]. cbn [flat_map]. apply quote_cp_chars; auto.
Qed.
Print Assumptions C30_literal_is_always_complete.

(** No control character, line separator, paragraph separator or next-line character is
    left in it. *)
Theorem C30_no_raw_control :
  forall s c, In c (runes (quote_single s)) -> 32 <= c /\ c <> 133 /\ ~ newline c.
Proof.
  intros s c. rewrite quote_text. intros [<-|I]; [unfold newline; lia|].
  apply in_app_or in I. destruct I as [I|[<-|[]]]; [|unfold newline; lia].
  apply in_flat_map in I. destruct I as (ch & I & H). pose proof (runes_scalar s) as SC.
  rewrite Forall_forall in SC. specialize (SC ch I). clear I.
  assert (HB : forall d, 0 <= d < 16 -> 48 <= hx d <= 70) by (intros d Hd; unfold hx; destruct (Z.ltb_spec d 10); lia).
  unfold quote_cp in H.
  repeat match type of H with context[if ch =? ?n then _ else _] => destruct (Z.eqb_spec ch n); [simpl in H; unfold newline; lia|] end.
  destruct ((ch =? 8232) || (ch =? 8233) || (ch =? 133) || (ch <=? 31)) eqn:E.
  - assert (R : 0 <= ch < 65536).
    { rewrite !orb_true_iff, !Z.eqb_eq, Z.leb_le in E. destruct SC; lia. }
    pose proof (HB (ch / 4096) ltac:(zdm)). pose proof (HB (ch / 256 mod 16) ltac:(zdm)).
    pose proof (HB (ch / 16 mod 16) ltac:(zdm)). pose proof (HB (ch mod 16) ltac:(zdm)).
    cbn [In] in H. unfold newline. lia.
  - rewrite !orb_false_iff, !Z.eqb_neq, Z.leb_gt in E. destruct H as [<-|[]]. unfold newline. lia.
Qed.
Print Assumptions C30_no_raw_control.

(** UTF-16 determines the text. *)
Lemma utf16_inj cs : forall cs', Forall scalar cs -> Forall scalar cs' -> flat_map units cs = flat_map units cs' -> cs = cs'.
Proof.
  assert (W : forall c, scalar c -> (units c = [c] /\ (c < 55296 \/ 57343 < c)) \/
     (exists h l, units c = [h; l] /\ 55296 <= h <= 56319 /\ c = 65536 + (h - 55296) * 1024 + (l - 56320))).
  { intros c Hc. unfold units. destruct (Z.ltb_spec c 65536); [left; split; [auto|destruct Hc; lia]|right].
    eexists _, _. split; [reflexivity|]. destruct Hc; zdm. }
  induction cs as [|c cs IH]; intros [|c' cs'] F F' E; [auto| | |];
    repeat match goal with H : Forall scalar (_ :: _) |- _ => inversion H; clear H; subst end.
  - cbn [flat_map] in E. destruct (W c' ltac:(auto)) as [[U1 _]|(h & l & U1 & _)]; rewrite U1 in E; discriminate.
  - cbn [flat_map] in E. destruct (W c ltac:(auto)) as [[U1 _]|(h & l & U1 & _)]; rewrite U1 in E; discriminate.
  - cbn [flat_map] in E. destruct (W c ltac:(auto)) as [[U1 R1]|(h & l & U1 & R1 & D1)];
      destruct (W c' ltac:(auto)) as [[U2 R2]|(h' & l' & U2 & R2 & D2)]; rewrite U1, U2 in E; cbn [app] in E; injection E as; try lia.
    + f_equal; auto.
    + subst h' l'. f_equal; [lia|auto].
Qed.

(** Different texts give different literals. *)
Theorem C30_injective :
  forall cs cs', Forall scalar cs -> Forall scalar cs' ->
    quote_single (flat_map enc cs) = quote_single (flat_map enc cs') -> cs = cs'.
Proof.
  intros cs cs' H H' E.
  pose proof (C30_literal_is_always_complete true (flat_map enc cs)) as L.
  pose proof (C30_literal_is_always_complete true (flat_map enc cs')) as L'.
  rewrite E in L. pose proof (string_literal_fun _ _ _ _ L L') as V.
  pose proof (runes_encs cs [] H) as R. pose proof (runes_encs cs' [] H') as R'. rewrite !app_nil_r in R, R'.
  change (runes (flat_map enc cs) = cs) in R. change (runes (flat_map enc cs') = cs') in R'.
  rewrite R, R' in V. now apply utf16_inj.
Qed.
Print Assumptions C30_injective.

(** Byte strings that are not UTF-8 can collide. *)
Theorem C30_injective_on_bytes_refuted : exists s s', s <> s' /\ quote_single s = quote_single s'.
Proof. exists [zb 128], [zb 129]. split; [discriminate|reflexivity]. Qed.
Print Assumptions C30_injective_on_bytes_refuted.

(** a'b, backslash, newline, U+2028, U+1F600 *)
Example C30_example :
  quote_single (flat_map enc [97; 39; 98; 92; 10; 8232; 128512]) =
    b "'a\'b\\\n\u2028" ++ [zb 240; zb 159; zb 152; zb 128] ++ b "'" /\
  Forall scalar [97; 39; 98; 92; 10; 8232; 128512] /\
  string_literal true (runes (quote_single (flat_map enc [97; 39; 98; 92; 10; 8232; 128512])))
    [97; 39; 98; 92; 10; 8232; 55357; 56832].
Proof.
  split; [reflexivity|]. split.
  - repeat (apply Forall_cons; [unfold scalar; lia|]). apply Forall_nil.
  - exists 39, [97; 92; 39; 98; 92; 92; 92; 110; 92; 117; 50; 48; 50; 56; 128512].
    split; [auto|]. split; [reflexivity|]. apply chars_iff. reflexivity.
Qed.
