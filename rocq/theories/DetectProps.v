(* DetectProps.v: C71, the encoding found in a block of bytes. *)
From Verif Require Import Base XmlModel EncModel EncSpec EncProofs EncProps EncTabData EncTabModel EncTabSpec EncTabProofs EncTabProps DetectModel DetectSpec DetectProofs.
From Coq Require String.
Import String.StringSyntax.
Open Scope Z_scope.
Ltac Zify.zify_post_hook ::= idtac.

Lemma begins_app w v bs : begins (w ++ v) bs -> begins w bs.
Proof. intros (r & ->). exists (v ++ r). rewrite app_assoc. reflexivity. Qed.
Definition plain_start (bs : list Z) : Prop := (4 <= length bs)%nat \/ exists a r, bs = a :: r /\ ~ In a [0; 0x3C; 0xEF; 0xFE; 0xFF].
Lemma detect_unmarked bs : plain_start bs -> unmarked bs -> detect bs = Ret (KChar (-1)).
Proof.
  intros P U. assert (N : forall w, In w mark_words \/ (exists v, In v mark_words /\ exists u, w = v ++ u) -> (length w <= 4)%nat -> (exists a u, w = a :: u /\ In a [0; 0x3C; 0xEF; 0xFE; 0xFF]) -> bytes_at w bs 0 = Ret false).
  { intros w I L (a & u & W & A). assert (NB : ~ begins w bs).
    { intros B. destruct I as [I|(v & I & u' & ->)]; [exact (U w I B)|]. apply (U v I). exact (begins_app _ _ _ B). }
    destruct P as [P|(b & r & -> & NA)].
    - apply bytes_at_no; [lia|exact NB].
    - rewrite bytes_at_start, W. cbn [pfx]. destruct (Z.eqb_spec b a) as [->|]; [contradiction|reflexivity]. }
  unfold detect, marks. rewrite N; [|left; cbn; tauto|cbn; lia|do 2 eexists; split; [reflexivity|cbn; tauto]]. cbn [bind first_mark].
  rewrite (N [0xFF; 0xFE; 0; 0]); [|right; exists [0xFF; 0xFE]; split; [cbn; tauto|exists [0; 0]; reflexivity]|cbn; lia|do 2 eexists; split; [reflexivity|cbn; tauto]].
  cbn [bind]. do 8 (rewrite N; [cbn [bind]|left; cbn; tauto|cbn; lia|do 2 eexists; split; [reflexivity|cbn; tauto]]). reflexivity.
Qed.
(* C71: bytes that show no encoding are read in the default one, here as written in it *)
Theorem C71_default : forall t bs, Forall (encodable def_encoding) t -> get_chars1 (-1) t = Ret bs ->
  unmarked bs -> plain_start bs -> read_stream bs (-1) = Ret t.
Proof.
  intros t bs F G U P. unfold read_stream. change (-1 =? -2) with false. change (-1 =? -3) with false. change (-1 =? -4) with false.
  change (-1 =? -5) with false. change (-1 =? -6) with false. change (enc_names_num <? -1) with false. change (-1 =? -1) with true. cbv iota.
  rewrite (detect_unmarked bs P U). cbn [bind decode].
  destruct (C70_text_roundtrip (-1) t (or_intror eq_refl) F) as (bs' & G' & _ & R). rewrite G in G'. injection G' as <-. exact R.
Qed.
(* a stated encoding is used whatever the bytes show *)
Theorem C71_stated : forall bs e, encoding e -> read_stream bs e = text_of_bytes e bs.
Proof.
  intros bs e H. unfold read_stream, enc_names_num, encoding in *. replace (e =? -2) with false by lia. replace (e =? -3) with false by lia.
  replace (e =? -4) with false by lia. replace (e =? -5) with false by lia. replace (e =? -6) with false by lia. replace (8 <? e) with false by lia.
  replace (e =? -1) with false by lia. reflexivity.
Qed.

Lemma read_auto bs : read_stream bs (-1) = do k <- detect bs; decode k bs.
Proof. reflexivity. Qed.
Ltac by_marks := rewrite read_auto; unfold detect, marks; repeat (cbn [first_mark]; rewrite bytes_at_start; cbn [pfx Z.eqb Pos.eqb bind]).
Lemma bmp_cons c t : is_bmp c -> Forall is_bmp t -> Forall is_bmp (c :: t).
Proof. constructor; assumption. Qed.
(* a byte order mark, in UTF-8 *)
Theorem C71_bom_utf8 : forall t, Forall is_bmp t -> read_stream (0xEF :: 0xBB :: 0xBF :: flat_map to_utf8 t) (-1) = Ret (0xFEFF :: t).
Proof.
  intros t F. by_marks. cbn [decode].
  change (239 :: 187 :: 191 :: flat_map to_utf8 t) with (flat_map to_utf8 (0xFEFF :: t)). apply C04_utf8_roundtrip_partial.
  apply bmp_cons; [unfold is_bmp; lia|exact F].
Qed.
(* in UTF-16, and the text of at least a character, not NUL, if the first byte is the low one *)
Lemma low_byte a : 0 <= a < 65536 -> Z.land a 255 = a mod 256 /\ Z.land (Z.shiftr a 8) 255 = a / 256.
Proof.
  intros H. rewrite land255. split; [reflexivity|]. rewrite land255, shr by lia. change (2 ^ 8) with 256. apply Z.mod_small.
  pose proof (Z.div_mod a 256 ltac:(lia)) as D. pose proof (Z.mod_pos_bound a 256 ltac:(lia)). lia.
Qed.
Theorem C71_bom_utf16le : forall c t, Forall is_bmp (c :: t) -> c <> 0 -> read_stream (0xFF :: 0xFE :: flat_map to_utf16 (c :: t)) (-1) = Ret (0xFEFF :: c :: t).
Proof.
  intros c t F N. pose proof (Forall_inv F) as C. unfold is_bmp in C. destruct (low_byte c ltac:(lia)) as (L & H).
  assert (NZ : (c mod 256 =? 0) && (c / 256 =? 0) = false).
  { pose proof (Z.div_mod c 256 ltac:(lia)) as D. destruct (Z.eqb_spec (c mod 256) 0), (Z.eqb_spec (c / 256) 0); try reflexivity. lia. }
  assert (E : from_utf16 (0xFF :: 0xFE :: flat_map to_utf16 (c :: t)) = 0xFEFF :: c :: t).
  { change (255 :: 254 :: flat_map to_utf16 (c :: t)) with (flat_map to_utf16 (0xFEFF :: c :: t)). apply from_utf16_bmp. apply bmp_cons; [unfold is_bmp; lia|exact F]. }
  rewrite read_auto. assert (D : detect (0xFF :: 0xFE :: flat_map to_utf16 (c :: t)) = Ret KUtf16); [|rewrite D; cbn [bind decode]; rewrite E; reflexivity].
  cbn [flat_map]. unfold to_utf16 at 1. rewrite L, H. cbn [app]. unfold detect, marks. rewrite bytes_at_start. cbn [pfx Z.eqb Pos.eqb bind].
  cbn [first_mark]. rewrite bytes_at_start. cbn [pfx]. change (255 =? 255) with true. change (254 =? 254) with true. cbv iota.
  destruct (c mod 256 =? 0); [cbn [andb] in NZ; rewrite NZ|]; cbn [bind]; do 4 (rewrite bytes_at_start; cbn [pfx Z.eqb Pos.eqb bind]); reflexivity.
Qed.
Theorem C71_bom_utf16be : forall t, Forall is_bmp t -> read_stream (0xFE :: 0xFF :: flat_map to_utf16be t) (-1) = Ret (0xFEFF :: t).
Proof.
  intros t F. by_marks. cbn [decode]. f_equal.
  change (254 :: 255 :: flat_map to_utf16be t) with (flat_map to_utf16be (0xFEFF :: t)). apply from_utf16be_bmp.
  apply bmp_cons; [unfold is_bmp; lia|exact F].
Qed.
(* UTF-32 as the Unicode Standard has it, for characters of 16 bits *)
Definition le32 (c : Z) : list Z := [c mod 256; c / 256; 0; 0].
Definition be32 (c : Z) : list Z := [0; 0; c / 256; c mod 256].
Lemma from_le32 t : Forall is_bmp t -> from_utf32 (flat_map le32 t) = t.
Proof.
  induction 1 as [|c t C F IH]; [reflexivity|]. unfold from_utf32 in *. cbn [flat_map le32 app words32 map]. rewrite IH. f_equal. unfold is_bmp in C.
  pose proof (Z.div_mod c 256 ltac:(lia)) as D. replace (c mod 256 + 256 * (c / 256) + 65536 * 0 + 16777216 * 0) with c by lia.
  unfold unit32. rewrite shr by lia. change (2 ^ 16) with 65536. rewrite Z.div_small by lia. reflexivity.
Qed.
Lemma be32_unit a b : 0 <= a < 256 -> 0 <= b < 256 -> unit32be (0 + 256 * 0 + 65536 * a + 16777216 * b) = 256 * a + b.
Proof.
  intros A B. set (x := a + 256 * b). assert (W : 0 + 256 * 0 + 65536 * a + 16777216 * b = Z.shiftl x 16).
  { rewrite shl by lia. change (2 ^ 16) with 65536. unfold x. lia. }
  rewrite W. clear W. unfold unit32be.
  assert (L1 : Z.shiftl (Z.shiftl x 16) 16 mod 2 ^ 32 = 0).
  { rewrite !shl by lia. replace (x * 2 ^ 16 * 2 ^ 16) with (x * 2 ^ 32) by (change (2 ^ 32) with (2 ^ 16 * 2 ^ 16); lia). apply Z.mod_mul. discriminate. }
  rewrite L1. change (negb (0 =? 0)) with false. cbv iota.
  assert (LOW : forall m, 0 <= m < 65536 -> Z.land (Z.shiftl x 16) m = 0).
  { intros m M. apply Z.bits_inj'. intros n N. rewrite Z.land_spec, Z.shiftl_spec, Z.bits_0 by lia. destruct (Z.ltb_spec n 16).
    - rewrite Z.testbit_neg_r by lia. reflexivity.
    - destruct (Z.eq_dec m 0) as [->|M0]; [rewrite Z.bits_0; apply andb_false_r|]. rewrite (Z.bits_above_log2 m n); [apply andb_false_r|lia|].
      apply Z.lt_le_trans with 16; [|lia]. apply Z.log2_lt_pow2; [lia|]. change (2 ^ 16) with 65536. lia. }
  rewrite !LOW by lia. rewrite !Z.shiftl_0_l.
  change 16711680 with (Z.shiftl 255 16). change 4278190080 with (Z.shiftl 65280 16). rewrite <- !Z.shiftl_land.
  rewrite land255. replace (x mod 256) with a; [|unfold x; rewrite Z.mul_comm, Z.mod_add, Z.mod_small by lia; reflexivity].
  assert (L2 : Z.shiftr (Z.shiftl (Z.land x 65280) 16) 24 = b).
  { change 65280 with (Z.shiftl 255 8). rewrite <- (Z.shiftr_shiftr _ 16 8) by lia. rewrite Z.shiftr_shiftl_l by lia. change (16 - 16) with 0. rewrite Z.shiftl_0_r.
    rewrite Z.shiftr_land. rewrite Z.shiftr_shiftl_l by lia. change (8 - 8) with 0. rewrite Z.shiftl_0_r, land255, shr by lia. change (2 ^ 8) with 256.
    unfold x. rewrite Z.mul_comm, Z.div_add, (Z.div_small a), Z.add_0_l, Z.mod_small by lia. reflexivity. }
  rewrite L2. rewrite shl, shr by lia. change (2 ^ 16) with (256 * 2 ^ 8). rewrite Z.mul_assoc, Z.div_mul by discriminate.
  rewrite Z.mod_small; [lia|]. change (2 ^ 32) with 4294967296. lia.
Qed.
Lemma from_be32 t : Forall is_bmp t -> from_utf32be (flat_map be32 t) = t.
Proof.
  induction 1 as [|c t C F IH]; [reflexivity|]. unfold from_utf32be in *. cbn [flat_map be32 app words32 map]. rewrite IH. f_equal. unfold is_bmp in C.
  pose proof (Z.div_mod c 256 ltac:(lia)) as D. pose proof (Z.mod_pos_bound c 256 ltac:(lia)) as M. rewrite be32_unit by lia. lia.
Qed.
Theorem C71_bom_utf32 : forall t, Forall is_bmp t ->
  read_stream (0xFF :: 0xFE :: 0 :: 0 :: flat_map le32 t) (-1) = Ret (0xFEFF :: t) /\
  read_stream (0 :: 0 :: 0xFE :: 0xFF :: flat_map be32 t) (-1) = Ret (0xFEFF :: t).
Proof.
  intros t F. assert (F' : Forall is_bmp (0xFEFF :: t)) by (apply bmp_cons; [unfold is_bmp; lia|exact F]).
  split; by_marks; cbn [decode]; f_equal; [exact (from_le32 _ F')|exact (from_be32 _ F')].
Qed.
(* an XML text, without a mark, in UTF-16 and UTF-32 *)
Theorem C71_xml_wide : forall t, Forall is_bmp t ->
  read_stream (flat_map to_utf16 (60 :: 63 :: t)) (-1) = Ret (60 :: 63 :: t) /\
  read_stream (flat_map to_utf16be (60 :: 63 :: t)) (-1) = Ret (60 :: 63 :: t) /\
  read_stream (flat_map le32 (60 :: t)) (-1) = Ret (60 :: t) /\ read_stream (flat_map be32 (60 :: t)) (-1) = Ret (60 :: t).
Proof.
  intros t F. assert (F2 : Forall is_bmp (60 :: t)) by (apply bmp_cons; [unfold is_bmp; lia|exact F]).
  assert (F3 : Forall is_bmp (60 :: 63 :: t)) by (repeat apply bmp_cons; [unfold is_bmp; lia|unfold is_bmp; lia|exact F]).
  pose proof (from_utf16_bmp _ F3) as R1. pose proof (from_utf16be_bmp _ F3) as R2. pose proof (from_le32 _ F2) as R3. pose proof (from_be32 _ F2) as R4.
  cbn [flat_map] in *. change (to_utf16 60) with [60; 0] in *. change (to_utf16 63) with [63; 0] in *. change (to_utf16be 60) with [0; 60] in *. change (to_utf16be 63) with [0; 63] in *.
  change (le32 60) with [60; 0; 0; 0] in *. change (be32 60) with [0; 0; 0; 60] in *. cbn [app] in *.
  repeat split; by_marks; cbn [decode]; f_equal; assumption.
Qed.
(* <? ... ? without encoding: UTF-8 *)
Theorem C71_xml_utf8 : forall bs, undeclared bs -> read_stream bs (-1) = from_utf8 bs.
Proof.
  intros bs (head & rest & -> & N & NE).
  assert (X : xml_kind (lit "<?" ++ head ++ lit "?" ++ rest) = Ret KUtf8).
  { unfold xml_kind. change (lit "?" ++ rest) with (63 :: rest). rewrite scan_none; [reflexivity|reflexivity|cbn; lia|lia|exact N|exact NE]. }
  rewrite read_auto. unfold detect. rewrite X. change (lit "<?" ++ head ++ lit "?" ++ rest) with (60 :: 63 :: head ++ lit "?" ++ rest). unfold marks.
  repeat (cbn [first_mark]; rewrite bytes_at_start; cbn [pfx Z.eqb Pos.eqb bind]). reflexivity.
Qed.
(* with encoding="name": never read in it.  For the name is taken from the wrong bytes: the number of
   its letters is taken for an encoding, and what stands before it, <?xml ..., for the name.  A name of 8
   letters makes the tables be read beyond their end *)
Lemma index_lt x : encoding_index (Some (60 :: x)) = -1.
Proof.
  cbn [encoding_index]. assert (A : forallb (fun y => match fst y with a :: _ => negb (alower a =? 60) | [] => true end) enc_names = true) by reflexivity.
  revert A. generalize enc_names as l. induction l as [|(m, p) l IH]; intros A; [reflexivity|]. cbn [forallb fst] in A. apply andb_true_iff in A. destruct A as (A & A').
  cbn [index_in]. replace (same_nocase m (60 :: x)) with false; [apply IH, A'|]. destruct m as [|a m]; [reflexivity|]. cbn [same_nocase]. change (alower 60) with 60.
  destruct (alower a =? 60); [discriminate|reflexivity].
Qed.
Lemma read1_ok e bs : encoding e -> Forall is_byte bs -> exists t, read1 e bs = Ret t /\ Forall is_char16 t.
Proof.
  intros H F. induction F as [|b bs B F (t & R & G)]; [exists []; split; [reflexivity|constructor]|].
  destruct (C70_decode e b H B) as (_ & c & W & C & _). exists (c :: t). cbn [read1]. rewrite W, R. cbn [bind]. split; [reflexivity|constructor; assumption].
Qed.
Lemma chars1_ok e t : encoding e -> Forall is_char16 t -> exists bs, chars1 e t = Ret bs.
Proof.
  intros H F. induction F as [|c t C F (bs & E)]; [exists []; reflexivity|]. destruct (byte_of_char e c H C) as (b & T & _). exists (b :: bs).
  cbn [chars1]. rewrite (to_bytes1_ok _ _ _ H T), E. reflexivity.
Qed.
Theorem C71_declared_refuted : forall bs name, declares bs name -> Forall is_byte bs ->
  read_stream bs (-1) = if (length name =? 8)%nat then UB else Throw.
Proof.
  intros bs name (pre & q & x & rest & E & Q & NN & NQ & N63 & N60 & X & FST & LEN) FB. destruct name as [|n name]; [congruence|].
  assert (BS : bs = lit "<?" ++ pre ++ E9 ++ q :: n :: name ++ q :: x :: rest).
  { rewrite E. reflexivity. }
  cbn [length] in LEN.
  assert (SC : scan 99 bs 2 0 = Ret (2 + Z.of_nat (length pre) + 10, 2 + Z.of_nat (length pre) + 11 + Z.of_nat (length name))).
  { rewrite BS. apply scan_found; [reflexivity|lia|cbn; lia|exact Q|exact NQ|exact N63|exact N60|exact X|exact FST|lia]. }
  assert (K : declared bs (2 + Z.of_nat (length pre) + 10) (2 + Z.of_nat (length pre) + 11 + Z.of_nat (length name)) = if (length (n :: name) =? 8)%nat then UB else Throw).
  { unfold declared. replace (2 + Z.of_nat (length pre) + 11 + Z.of_nat (length name) - (2 + Z.of_nat (length pre) + 10)) with (Z.of_nat (length (n :: name))) by (cbn [length]; lia).
    set (hd := firstn _ bs). assert (HD : exists r, hd = 60 :: r /\ Forall is_byte hd).
    { unfold hd. replace (Z.to_nat (2 + Z.of_nat (length pre) + 10)) with (S (2 + length pre + 9)) by lia. rewrite BS. change (lit "<?") with [60; 63]. cbn [app firstn]. eexists. split; [reflexivity|].
      rewrite BS in FB. change (lit "<?") with [60; 63] in FB. cbn [app] in FB. constructor; [exact (Forall_inv FB)|]. apply Forall_inv_tail in FB. revert FB. generalize (63 :: pre ++ E9 ++ q :: n :: name ++ q :: x :: rest). clear. intros l F.
      rewrite <- (firstn_skipn (2 + length pre + 9) l) in F. apply Forall_app in F. apply F. }
    destruct HD as (r & HD & FH). clearbody hd. set (k := length (n :: name)). assert (K0 : (1 <= k)%nat) by (unfold k; cbn [length]; lia). clearbody k.
    unfold enc_names_num. destruct (Z.ltb_spec 8 (Z.of_nat k)) as [G|G]; [destruct (Nat.eqb_spec k 8); [lia|reflexivity]|].
    unfold text_of_bytes. destruct (Z.eqb_spec (Z.of_nat k) (-1)); [lia|]. destruct (Nat.eqb_spec k 8) as [->|NE8].
    - rewrite HD. cbn [read1]. replace (to_wchar (Z.of_nat 8) 60) with (@UB Z) by (vm_compute; reflexivity). reflexivity.
    - assert (EK : encoding (Z.of_nat k)) by (unfold encoding; lia). destruct (read1_ok _ _ EK FH) as (nm & R & C16). rewrite R. cbn [bind].
      rewrite HD in R. cbn [read1] in R. destruct (C70_ascii _ 60 EK ltac:(lia)) as (W60 & _). rewrite W60 in R. cbn [bind] in R.
      destruct (read1 (Z.of_nat k) r) as [t'| | |]; try discriminate R. cbn [bind] in R. injection R as <-.
      unfold get_chars1. change (if -1 =? -1 then def_encoding else -1) with def_encoding. assert (D : encoding def_encoding) by (unfold encoding, def_encoding; lia).
      destruct (chars1_ok def_encoding t' D (Forall_inv_tail C16)) as (cs & CS). cbn [chars1]. destruct (C70_ascii _ 60 D ltac:(lia)) as (_ & T60).
      rewrite (to_bytes1_ok _ _ _ D T60), CS. cbn [bind app c_str]. change (60 =? 0) with false. cbv iota. rewrite index_lt. reflexivity. }
  rewrite read_auto. unfold detect, xml_kind. rewrite SC. cbn [bind fst snd]. replace (negb (2 + Z.of_nat (length pre) + 10 =? 0) && negb (2 + Z.of_nat (length pre) + 11 + Z.of_nat (length name) =? 0)) with true by lia.
  rewrite K. rewrite BS. change (lit "<?") with [60; 63]. rewrite bytes_at_start. cbn [app pfx Z.eqb Pos.eqb bind]. destruct (length (n :: name) =? 8)%nat; reflexivity.
Qed.
(* blocks shorter than the marks are read beyond their end: the empty one, < alone, a mark alone *)
Theorem C71_short_refuted : read_stream [] (-1) = UB /\ read_stream [60] (-1) = UB /\ read_stream [0xFF; 0xFE] (-1) = UB.
Proof. repeat split. Qed.
(* and a declaration without ? in the first hundred bytes is searched beyond the end of the block *)
Theorem C71_open_refuted : forall l, (length l < 90)%nat -> ~ In 63 l -> ~ In 60 l -> ~ In 101 l -> read_stream (60 :: 63 :: l) (-1) = UB.
Proof.
  intros l L N63 N60 N101. rewrite read_auto. unfold detect. rewrite bytes_at_start. cbn [pfx Z.eqb Pos.eqb bind].
  assert (A : forall r p0 fuel p, p = Z.of_nat (length p0) -> Z.of_nat (length r) < Z.of_nat fuel -> p + Z.of_nat (length r) < 100 -> ~ In 63 r -> ~ In 60 r -> ~ In 101 r -> scan fuel (p0 ++ r) p 0 = UB).
  { induction r as [|a r IH]; intros p0 fuel p P F B M63 M60 M101; (destruct fuel as [|fuel]; [cbn [length] in F; lia|]); cbn [scan length] in *; (destruct (Z.leb_spec 100 p); [lia|]).
    - rewrite app_nil_r, zget_end by exact P. reflexivity.
    - rewrite zget_mid by exact P. cbn [bind]. destruct (Z.eqb_spec a 63) as [->|]; [exfalso; apply M63; left; reflexivity|].
      rewrite bytes_at_pfx by exact P. unfold encoding_eq. assert (PX : pfx E9 (a :: r) = Some false).
      { change E9 with (101 :: lit "ncoding="). cbn [pfx]. destruct (Z.eqb_spec a 101) as [->|]; [exfalso; apply M101; left; reflexivity|reflexivity]. }
      rewrite PX. rewrite snoc. destruct r as [|b r].
      + rewrite app_nil_r, zget_end by (rewrite len_snoc, P; lia). reflexivity.
      + rewrite zget_mid by (rewrite len_snoc, P; lia). cbn [bind]. destruct (Z.eqb_spec b 60) as [->|]; [exfalso; apply M60; right; left; reflexivity|].
        change (negb (0 =? 0)) with false. cbv iota. cbn [negb bind].
        apply IH; [rewrite len_snoc, P; lia|lia|cbn [length] in *; lia|intros I; apply M63; right; exact I|intros I; apply M60; right; exact I|intros I; apply M101; right; exact I]. }
  unfold xml_kind. change (60 :: 63 :: l) with ([60; 63] ++ l). rewrite A; [reflexivity|reflexivity|cbn; lia|cbn; lia|assumption|assumption|assumption].
Qed.

Example ex_default : Forall (encodable def_encoding) [1055; 1088; 1080] /\ get_chars1 (-1) [1055; 1088; 1080] = Ret [207; 240; 232] /\ unmarked [207; 240; 232] /\ plain_start [207; 240; 232].
Proof.
  split; [exact ex_encodable|]. split; [vm_compute; reflexivity|]. split.
  - intros w I (r & E). cbn in I. repeat (destruct I as [<-|I]; [discriminate E|]). destruct I.
  - right. exists 207, [240; 232]. split; [reflexivity|]. cbn. lia.
Qed.
Example ex_undeclared : undeclared (lit "<?xml version='1.0'?><a/>").
Proof.
  exists (lit "xml version='1.0'"), (lit "><a/>"). split; [reflexivity|]. split; [cbn; lia|]. intros a b E.
  let v := eval vm_compute in (lit "xml version='1.0'") in change (lit "xml version='1.0'") with v in E.
  do 17 (destruct a as [|? a]; [discriminate E|apply (f_equal (@tl Z)) in E; cbn [tl app] in E]). destruct a; discriminate E.
Qed.
Example ex_declares : declares (lit "<?xml version='1.0' encoding='KOI8-R'?>") (lit "KOI8-R") /\ declares (lit "<?xml version='1.0' encoding='us-ascii'?>") (lit "us-ascii").
Proof.
  assert (FST : forall a b : list Z, lit "xml version='1.0' " ++ lit "encoding=" = a ++ lit "encoding=" ++ b -> b = []).
  { intros a b E. let v := eval vm_compute in (lit "xml version='1.0' " ++ lit "encoding=") in change (lit "xml version='1.0' " ++ lit "encoding=") with v in E.
    do 18 (destruct a as [|? a]; [discriminate E|apply (f_equal (@tl Z)) in E; cbn [tl app] in E]). destruct a as [|? a]; [injection E as E; auto|].
    exfalso. apply (f_equal (@length Z)) in E. cbn [app] in E. cbn [length] in E. rewrite !app_length in E. change (length (lit "encoding=")) with 9%nat in E. lia. }
  split; exists (lit "xml version='1.0' "), 39, 63, (lit ">"); (split; [reflexivity|]); (split; [right; reflexivity|]); (split; [discriminate|]);
    (split; [cbn; lia|]); (split; [cbn; lia|]); (split; [cbn; lia|]); (split; [discriminate|]); (split; [exact FST|]); cbn; lia.
Qed.
Print Assumptions C71_default.
Print Assumptions C71_stated.
Print Assumptions C71_bom_utf8.
Print Assumptions C71_bom_utf16le.
Print Assumptions C71_bom_utf16be.
Print Assumptions C71_bom_utf32.
Print Assumptions C71_xml_wide.
Print Assumptions C71_xml_utf8.
Print Assumptions C71_declared_refuted.
Print Assumptions C71_short_refuted.
Print Assumptions C71_open_refuted.
