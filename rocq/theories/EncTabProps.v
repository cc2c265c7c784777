(* EncTabProps.v: C70, the single-byte encodings of the legacy strings. *)
From Verif Require Import Base XmlModel EncModel EncTabData EncTabModel EncTabSpec EncTabProofs.
From Coq Require String.
Import String.StringSyntax.
Open Scope Z_scope.

(* C70: a character of 16 bits is encoded by the one byte that stands for it, and by 0 if the
   encoding has no byte for it; what is encoded to another byte than 0 reads back. *)
Theorem C70_encode : forall e c, encoding e -> is_char16 c ->
  exists b, to_char e c = Ret b /\ is_byte b /\
    (forall b', stands e b' c <-> b' = b /\ encodable e c) /\ (encodable e c \/ b = 0) /\ (b <> 0 -> to_wchar e b = Ret c).
Proof.
  intros e c H C. destruct (byte_of_char e c H C) as (b & T & B & NZ). exists b. split; [exact T|]. split; [exact B|].
  split; [|split; [|exact NZ]].
  - intros b'. split.
    + intros S. split; [|exists b'; exact S]. destruct (char_of_byte e b' c H S) as (_ & Q). rewrite T in Q. injection Q as ->. reflexivity.
    + intros (-> & b2 & S). destruct (char_of_byte e b2 c H S) as (_ & Q). rewrite T in Q. injection Q as ->. exact S.
  - destruct (Z.eq_dec b 0) as [->|N]; [right; reflexivity|]. left. exists b. split; [exact B|]. split; [auto|].
    intros ->. exfalso. assert (S : stands e 0 0) by (apply ascii_byte; [exact H|lia]).
    destruct (char_of_byte e 0 0 H S) as (_ & Q). rewrite T in Q. injection Q as ->. auto.
Qed.
(* a byte reads as a character of 16 bits, and every byte but the listed ones is defined and comes back *)
Theorem C70_decode : forall e b, encoding e -> is_byte b ->
  (defined e b <-> ~ In b (gaps e)) /\
  exists c, to_wchar e b = Ret c /\ is_char16 c /\ (if existsb (Z.eqb b) (gaps e) then c = 0 else to_char e c = Ret b).
Proof.
  intros e b H B. pose proof (defined_spec e b H B) as D. split; [exact D|].
  destruct (rows_of e H) as (E & R & NE & NR & _). destruct (to_wchar_at e b E H B NE) as (c & _ & W). exists c. split; [exact W|].
  assert (X : existsb (Z.eqb b) (gaps e) = true <-> In b (gaps e)).
  { rewrite existsb_exists. split; [intros (x & I & K); apply Z.eqb_eq in K; congruence|]. intros I; exists b; split; [exact I|apply Z.eqb_refl]. }
  destruct (existsb (Z.eqb b) (gaps e)) eqn:G.
  - assert (C0 : c = 0).
    { destruct (Z.eq_dec c 0); [assumption|]. exfalso. assert (K : defined e b) by (exists c; split; [exact B|split; [exact W|tauto]]). apply D in K. apply K. apply X. reflexivity. }
    split; [subst c; unfold is_char16; lia|exact C0].
  - assert (K : defined e b). { apply D. intros I. apply X in I. discriminate. }
    destruct K as (c' & S). pose proof S as (_ & W' & _). rewrite W in W'. injection W' as <-. apply char_of_byte; assumption.
Qed.
(* the first 128 bytes are ASCII in every encoding *)
Theorem C70_ascii : forall e b, encoding e -> 0 <= b < 128 -> to_wchar e b = Ret b /\ to_char e b = Ret b.
Proof.
  intros e b H B. pose proof (ascii_byte e b H B) as S. destruct (char_of_byte e b b H S) as (_ & T). destruct S as (_ & W & _). auto.
Qed.

(* ---- texts *)
Definition enc_of (e : Z) : Z := if e =? -1 then def_encoding else e.
Lemma enc_of_ok e : encoding e \/ e = -1 -> encoding (enc_of e).
Proof. unfold enc_of, encoding, def_encoding. intros H. destruct (Z.eqb_spec e (-1)); lia. Qed.
Lemma to_bytes1_ok e c b : encoding e -> to_char e c = Ret b -> to_bytes1 e c = Ret [b].
Proof. intros H T. unfold to_bytes1, enc_names_num, encoding in *. replace ((e <? 0) || (8 <=? e)) with false by lia. rewrite T. reflexivity. Qed.
(* a text of characters of the encoding written as bytes reads back *)
Theorem C70_text_roundtrip : forall e t, encoding e \/ e = -1 -> Forall (encodable (enc_of e)) t ->
  exists bs, get_chars1 e t = Ret bs /\ Forall2 (stands (enc_of e)) bs t /\ text_of_bytes e bs = Ret t.
Proof.
  intros e t H F. unfold get_chars1, text_of_bytes. fold (enc_of e). pose proof (enc_of_ok e H) as H'. generalize (enc_of e) as k, H', F. clear.
  intros e H F. induction F as [|c t (b & S) F (bs & E & F2 & R)]; [exists []; repeat split; constructor|].
  destruct (char_of_byte e b c H S) as (_ & T). exists (b :: bs). cbn [chars1 read1]. rewrite (to_bytes1_ok _ _ _ H T), E. cbn [bind app].
  pose proof S as (_ & W & _). rewrite W, R. cbn [bind]. repeat split. constructor; assumption.
Qed.
(* bytes that the encoding defines, read and written again, are the same bytes *)
Theorem C70_bytes_roundtrip_partial : forall e bs, encoding e \/ e = -1 -> Forall (defined (enc_of e)) bs ->
  exists t, text_of_bytes e bs = Ret t /\ get_chars1 e t = Ret bs.
Proof.
  intros e bs H F. unfold get_chars1, text_of_bytes. fold (enc_of e). pose proof (enc_of_ok e H) as H'. generalize (enc_of e) as k, H', F. clear.
  intros e H F. induction F as [|b bs (c & S) F (t & R & E)]; [exists []; repeat split|].
  destruct (char_of_byte e b c H S) as (_ & T). exists (c :: t). cbn [chars1 read1]. rewrite (to_bytes1_ok _ _ _ H T), E. cbn [bind app].
  pose proof S as (_ & W & _). rewrite W, R. cbn [bind]. split; reflexivity.
Qed.
(* not every block of bytes: byte 0x98 of CP1251, the default encoding, reads as NUL *)
Theorem C70_bytes_roundtrip_refuted : exists t, text_of_bytes (-1) [192; 152] = Ret t /\ get_chars1 (-1) t <> Ret [192; 152].
Proof. exists [1040; 0]. split; [vm_compute; reflexivity|]. vm_compute. discriminate. Qed.
(* every text of 16-bit characters is written, one byte for a character, whatever the encoding
   lacks; and never beyond the block of bytes: getChars as of EncModel.v *)
Lemma chars_loop_one (enc : Z -> list Z) n : forall t i out, (forall c, In c t -> length (enc c) = 1%nat) ->
  i = Z.of_nat (length out) -> i + Z.of_nat (length t) = n -> chars_loop enc n i n out t = Ret (out ++ flat_map enc t).
Proof.
  induction t as [|c t IH]; intros i out L I N; cbn [chars_loop flat_map].
  - rewrite app_nil_r. destruct (Z.ltb_spec (Z.of_nat (length out)) (n + 1)); [reflexivity|cbn [length] in N; lia].
  - pose proof (L c (or_introl eq_refl)) as LC. rewrite LC. cbn [length] in N.
    destruct (Z.ltb_spec n (Z.of_nat (length out) + Z.of_nat 1)); [lia|]. cbn [bind].
    replace ((n + 1 <? Z.of_nat (length out) + Z.of_nat 1) || (n <? 0)) with false by lia.
    rewrite IH; [rewrite <- app_assoc; reflexivity|intros; apply L; right; assumption|rewrite app_length, LC; lia|lia].
Qed.
Theorem C70_text_written : forall e t, encoding e \/ e = -1 -> Forall is_char16 t -> Z.of_nat (length t) < 2147483648 ->
  exists bs, get_chars1 e t = Ret bs /\ length bs = length t /\ Forall is_byte bs /\
    get_chars (fun c => match to_bytes1 (enc_of e) c with Ret b => b | _ => [] end) 1 t = Ret bs.
Proof.
  intros e t H F LT. unfold get_chars1. fold (enc_of e). pose proof (enc_of_ok e H) as H'. revert H'. generalize (enc_of e) as k. intros k K.
  set (f := fun c => match to_bytes1 k c with Ret b => b | _ => [] end).
  assert (ONE : forall c, is_char16 c -> exists b, to_bytes1 k c = Ret [b] /\ is_byte b).
  { intros c C. destruct (byte_of_char k c K C) as (b & T & B & _). exists b. split; [apply to_bytes1_ok; assumption|exact B]. }
  assert (A : exists bs, chars1 k t = Ret bs /\ length bs = length t /\ Forall is_byte bs /\ flat_map f t = bs).
  { clear LT. induction F as [|c t C F (bs & E & L & FB & FM)]; [exists []; repeat split; constructor|].
    destruct (ONE c C) as (b & T & B). exists (b :: bs). cbn [chars1 flat_map]. unfold f at 1. rewrite T, E, FM. cbn [bind app length]. rewrite L.
    repeat split. constructor; assumption. }
  destruct A as (bs & E & L & FB & FM). exists bs. split; [exact E|]. split; [exact L|]. split; [exact FB|].
  unfold get_chars, int32. rewrite Z.mul_1_r. replace ((-2147483648 <=? Z.of_nat (length t)) && (Z.of_nat (length t) <=? 2147483647)) with true by lia.
  cbn [bind]. rewrite chars_loop_one; [cbn [app]; rewrite FM; reflexivity| |reflexivity|lia].
  intros c I. rewrite Forall_forall in F. destruct (ONE c (F c I)) as (b & T & _). unfold f. rewrite T. reflexivity.
Qed.
(* beyond 16 bits the look-up goes astray: U+10041 becomes the letter A in 8859-1 (its number of
   blocks is read among those of 8859-2), and with KOI8-R a domino tile reads outside the table *)
Theorem C70_encode_refuted : to_char 0 0x10041 = Ret 65 /\ to_wchar 0 65 = Ret 65 /\ exists c, 65536 <= c <= 0x10FFFF /\ to_char 7 c = UB.
Proof. split; [vm_compute; reflexivity|]. split; [vm_compute; reflexivity|]. exists 0x1F080. split; [lia|]. vm_compute. reflexivity. Qed.
(* the number 8, one beyond the last encoding, is accepted by CString (CString.cpp:34) and reads
   outside the table *)
Theorem C70_beyond_refuted : to_wchar enc_names_num 65 = UB.
Proof. vm_compute. reflexivity. Qed.

(* ---- the names of the encodings *)
Lemma alower_same a b : alower a =? alower b = true <-> same_letter a b.
Proof. unfold alower, same_letter. destruct ((65 <=? a) && (a <=? 90)) eqn:A, ((65 <=? b) && (b <=? 90)) eqn:B; lia. Qed.
Lemma same_nocase_spec m n : same_nocase m n = true <-> Forall2 same_letter m n.
Proof.
  revert n. induction m as [|a m IH]; intros [|b n]; cbn [same_nocase].
  - split; [constructor|reflexivity].
  - split; [discriminate|intros K; inversion K].
  - split; [discriminate|intros K; inversion K].
  - rewrite andb_true_iff, alower_same, IH. split; [intros (A & B); constructor; assumption|intros K; inversion K; auto].
Qed.
Definition listed : list (list Z * Z) := flat_map (fun x => map (fun m => (m, fst x)) (snd x)) known_names.
Lemma same_entries : forall m p, In (m, p) enc_names <-> In (m, p) listed.
Proof.
  assert (Q : forall l l' : list (list Z * Z), forallb (fun x => existsb (fun y => seqb (fst x) (fst y) && (snd x =? snd y)) l') l = true -> forall m p, In (m, p) l -> In (m, p) l').
  { intros l l' H m p I. rewrite forallb_forall in H. specialize (H _ I). apply existsb_exists in H. destruct H as ((m', p') & I' & K).
    cbn [fst snd] in K. apply andb_true_iff in K. destruct K as (K1 & K2). apply Z.eqb_eq in K2. destruct (seqb_spec m m'); [|discriminate]. subst. exact I'. }
  intros m p. split; apply Q; vm_compute; reflexivity.
Qed.
Lemma listed_names m p : In (m, p) listed <-> exists l, In (p, l) known_names /\ In m l.
Proof.
  unfold listed. rewrite in_flat_map. split.
  - intros ((q, l) & I & K). apply in_map_iff in K. destruct K as (m' & E & J). cbn [fst snd] in E, J. injection E as -> ->. exists l. auto.
  - intros (l & I & J). exists (p, l). split; [exact I|]. apply in_map_iff. exists m. auto.
Qed.
(* no two names differ in case only *)
Lemma names_apart : forall m p m' p' n, In (m, p) enc_names -> In (m', p') enc_names -> same_nocase m n = true -> same_nocase m' n = true -> p = p'.
Proof.
  assert (A : forallb (fun x => forallb (fun y => if same_nocase (fst x) (fst y) then snd x =? snd y else true) enc_names) enc_names = true) by (vm_compute; reflexivity).
  intros m p m' p' n I I' S S'. rewrite forallb_forall in A. specialize (A _ I). rewrite forallb_forall in A. specialize (A _ I'). cbn [fst snd] in A.
  assert (K : same_nocase m m' = true).
  { revert m' n S S' I I' A. clear. induction m as [|a m IH]; intros [|b m'] [|c n] S S' _ _ _; cbn [same_nocase] in *; try discriminate; [reflexivity|].
    apply andb_true_iff in S, S'. destruct S as (S1 & S2), S' as (S1' & S2'). rewrite andb_true_iff. split; [lia|].
    revert m' n S2 S2'. clear. induction m as [|a m IH]; intros [|b m'] [|c n] S S'; cbn [same_nocase] in *; try discriminate; [reflexivity|].
    apply andb_true_iff in S, S'. rewrite andb_true_iff. split; [lia|]. eapply IH; apply S || apply S'. }
  rewrite K in A. apply Z.eqb_eq in A. exact A.
Qed.
Lemma index_in_spec l n : (exists m p, In (m, p) l /\ same_nocase m n = true /\ index_in l n = p) \/
  ((forall m p, In (m, p) l -> same_nocase m n = false) /\ index_in l n = -1).
Proof.
  induction l as [|(m, p) l IH]; cbn [index_in]; [right; split; [intros ? ? []|reflexivity]|].
  destruct (same_nocase m n) eqn:E; [left; exists m, p; cbn; auto|].
  destruct IH as [(m' & p' & I & S & X)|(N & X)].
  - left. exists m', p'. cbn. auto.
  - right. split; [|exact X]. intros m' p' [K|I]; [injection K as <- <-; exact E|eauto].
Qed.
(* C70: the number of a name, letters compared without case; -1 for what is no name *)
Theorem C70_index_of_name : forall n,
  (forall e l m, In (e, l) known_names -> In m l -> Forall2 same_letter m n -> encoding_index (Some n) = e) /\
  ((forall e l m, In (e, l) known_names -> In m l -> ~ Forall2 same_letter m n) -> encoding_index (Some n) = -1).
Proof.
  intros n. cbn [encoding_index]. split.
  - intros e l m I J S. assert (K : In (m, e) enc_names) by (apply same_entries, listed_names; eauto). apply same_nocase_spec in S.
    destruct (index_in_spec enc_names n) as [(m' & p & I' & S' & ->)|(N & _)]; [|rewrite (N _ _ K) in S; discriminate].
    exact (names_apart _ _ _ _ _ I' K S' S).
  - intros H. destruct (index_in_spec enc_names n) as [(m' & p & I' & S' & _)|(_ & X)]; [|exact X].
    exfalso. apply same_entries, listed_names in I'. destruct I' as (l & I & J). apply same_nocase_spec in S'. exact (H _ _ _ I J S').
Qed.
(* every encoding has a name, which names it; no other number has one *)
Theorem C70_name_of_index : forall e,
  (-6 <= e < 8 /\ e <> -1 -> exists n, encoding_name e = Some n /\ encoding_index (Some n) = e) /\
  (~ (-6 <= e < 8 /\ e <> -1) -> encoding_name e = None).
Proof.
  intros e. split.
  - intros H. assert (K : e = -6 \/ e = -5 \/ e = -4 \/ e = -3 \/ e = -2 \/ e = 0 \/ e = 1 \/ e = 2 \/ e = 3 \/ e = 4 \/ e = 5 \/ e = 6 \/ e = 7) by lia.
    destruct K as [->|[->|[->|[->|[->|[->|[->|[->|[->|[->|[->|[->| ->]]]]]]]]]]]]; eexists; split; vm_compute; reflexivity.
  - intros H. unfold encoding_name, enc_names_num. replace ((8 <=? e) || (e <? -6) || (e =? -1)) with true by lia. reflexivity.
Qed.

(* the tables hold the encodings named: Latin-1, and Cyrillic in the others *)
Theorem C70_latin1 : forall c, 0 <= c < 256 -> stands 0 c c.
Proof.
  assert (A : match nth_error enc_rows 0 with Some E => allz (fun b c => c =? b) 0 E | None => false end = true) by (vm_compute; reflexivity).
  intros c C. assert (B : is_byte c) by (unfold is_byte; lia). assert (H : encoding 0) by (unfold encoding; lia).
  destruct (rows_of 0 H) as (E & R & NE & _). destruct (to_wchar_at 0 c E H B NE) as (x & X & W). change (Z.to_nat 0) with 0%nat in NE. rewrite NE in A.
  pose proof (allz_at _ _ c x A ltac:(lia) X) as Q. cbn beta in Q. apply Z.eqb_eq in Q. subst x. split; [exact B|]. split; [exact W|auto].
Qed.
Theorem C70_cp1251_cyrillic : forall b, 192 <= b < 256 -> stands 4 b (0x410 + (b - 192)).
Proof.
  assert (A : match nth_error enc_rows 4 with Some E => allz (fun b c => if 192 <=? b then c =? 0x410 + (b - 192) else true) 0 E | None => false end = true) by (vm_compute; reflexivity).
  intros b C. assert (B : is_byte b) by (unfold is_byte; lia). assert (H : encoding 4) by (unfold encoding; lia).
  destruct (rows_of 4 H) as (E & R & NE & _). destruct (to_wchar_at 4 b E H B NE) as (x & X & W). change (Z.to_nat 4) with 4%nat in NE. rewrite NE in A.
  pose proof (allz_at _ _ b x A ltac:(lia) X) as Q. cbn beta in Q. destruct (Z.leb_spec 192 b); [|lia]. apply Z.eqb_eq in Q. subst x.
  split; [exact B|]. split; [exact W|lia].
Qed.

Example ex_cp1251 : get_chars1 (-1) [1055; 1088; 1080] = Ret [207; 240; 232] /\ text_of_bytes 4 [207; 240; 232] = Ret [1055; 1088; 1080] /\
  get_chars1 7 [1055; 1088; 1080] = Ret [240; 210; 201] /\ get_chars1 6 [1055; 1088; 1080] = Ret [143; 224; 168] /\ get_chars1 0 [1055] = Ret [0].
Proof. vm_compute. repeat split. Qed.
Example ex_encodable : Forall (encodable (enc_of (-1))) [1055; 1088; 1080].
Proof. repeat constructor; [exists 207|exists 240|exists 232]; (split; [unfold is_byte; lia|split; [vm_compute; reflexivity|discriminate]]). Qed.
Example ex_defined : Forall (defined (enc_of 7)) [240; 210; 201].
Proof. repeat constructor; [exists 1055|exists 1088|exists 1080]; (split; [unfold is_byte; lia|split; [vm_compute; reflexivity|discriminate]]). Qed.
Example ex_names : encoding_index (Some (lit "windows-1251")) = 4 /\ encoding_index (Some (lit "utf-8")) = -2 /\ encoding_index (Some (lit "UTF8")) = -1 /\ encoding_index None = -1.
Proof. vm_compute. repeat split. Qed.

Print Assumptions C70_encode.
Print Assumptions C70_decode.
Print Assumptions C70_ascii.
Print Assumptions C70_text_roundtrip.
Print Assumptions C70_bytes_roundtrip_partial.
Print Assumptions C70_bytes_roundtrip_refuted.
Print Assumptions C70_text_written.
Print Assumptions C70_encode_refuted.
Print Assumptions C70_beyond_refuted.
Print Assumptions C70_index_of_name.
Print Assumptions C70_name_of_index.
Print Assumptions C70_latin1.
Print Assumptions C70_cp1251_cyrillic.
