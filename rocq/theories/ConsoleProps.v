(* ConsoleProps.v: C74, the file type the console tool takes, and the line numbers it writes. *)
From Verif Require Import Base XmlModel EncTabModel EncTabProps DetectModel ConvModel ConvProps NumSpec ConsoleModel.
From Coq Require String Lia.
Import String.StringSyntax Lia.
Open Scope Z_scope.

(* C74: a type asked for by its declared name is taken, whatever the other types, the text and the file name are *)
Theorem C74_named : forall cmp named types choose t x input lines, named t = Some x ->
  select_type cmp named types choose (Some t) input lines = Some x.
Proof. intros cmp named types choose t x input lines H. unfold select_type. rewrite H. reflexivity. Qed.
Print Assumptions C74_named.

(* t is the beginning of s, in the sense of a comparison that gives 0 for equal texts *)
Definition begins (cmp : list Z -> list Z -> Z) (s t : list Z) : Prop := (length t <= length s)%nat /\ cmp (firstn (length t) s) t = 0.
Definition other (cmp : list Z -> list Z -> Z) (s t : list Z) : Prop := (length t <= length s)%nat /\ cmp (firstn (length t) s) t <> 0.
Lemma test_other cmp s t : test cmp s t = true <-> other cmp s t.
Proof. unfold test, other. rewrite andb_true_iff, Nat.leb_le, negb_true_iff, Z.eqb_neq. reflexivity. Qed.
(* C74: the effect of the search. Of the types the first is taken of which the description or the name is long enough and does
   not begin with the text asked for *)
Theorem C74_search_effect : forall cmp named choose t input lines types x rest,
  named t = None ->
  Forall (fun y => ~ other cmp (ft_descr y) t /\ ~ other cmp (ft_name y) t) types ->
  other cmp (ft_descr x) t \/ other cmp (ft_name x) t ->
  select_type cmp named (types ++ x :: rest) choose (Some t) input lines = Some x.
Proof.
  intros cmp named choose t input lines types x rest N F H. unfold select_type. rewrite N.
  assert (S : search cmp (types ++ x :: rest) t = Some x); [|rewrite S; reflexivity].
  induction F as [|y ys (H1 & H2) F IH]; cbn [app search].
  - rewrite <- !test_other in H. destruct (test cmp (ft_descr x) t); [reflexivity|]. destruct H as [H|H]; [discriminate H|]. rewrite H. reflexivity.
  - rewrite <- test_other in H1, H2. destruct (test cmp (ft_descr y) t); [exfalso; apply H1; reflexivity|].
    destruct (test cmp (ft_name y) t); [exfalso; apply H2; reflexivity|]. exact IH.
Qed.
Print Assumptions C74_search_effect.

(* C74, false of the code: "the type of which the description begins with the text asked for is taken". Whatever comes after it,
   a first type that does not begin so is taken in its place *)
Theorem C74_select_refuted : forall cmp named choose t input lines x y rest,
  named t = None -> other cmp (ft_descr x) t -> begins cmp (ft_descr y) t ->
  select_type cmp named (x :: y :: rest) choose (Some t) input lines = Some x.
Proof.
  intros cmp named choose t input lines x y rest N O B.
  apply (C74_search_effect cmp named choose t input lines [] x (y :: rest) N (Forall_nil _) (or_introl O)).
Qed.
Print Assumptions C74_select_refuted.
(* ... and types that all begin so are as good as none: the file name and the text decide *)
Theorem C74_not_found_refuted : forall cmp named choose t input lines types,
  named t = None -> Forall (fun y => begins cmp (ft_descr y) t /\ begins cmp (ft_name y) t) types ->
  select_type cmp named types choose (Some t) input lines = select_type cmp named types choose None input lines.
Proof.
  intros cmp named choose t input lines types N F. unfold select_type. rewrite N.
  assert (S : search cmp types t = None); [|rewrite S; reflexivity].
  assert (B : forall s, begins cmp s t -> test cmp s t = false).
  { intros s (_ & E). unfold test. rewrite E. apply andb_false_r. }
  induction F as [|y ys (H1 & H2) F IH]; [reflexivity|]. cbn [search]. rewrite (B _ H1), (B _ H2). exact IH.
Qed.
Print Assumptions C74_not_found_refuted.
(* a comparison: 0 for equal texts, 1 for others *)
Definition cmp0 (a b : list Z) : Z := if list_eq_dec Z.eq_dec a b then 0 else 1.
Example C74_select_refuted_nonvacuous :
  let php := mkF (lit "php") (lit "PHP: hypertext preprocessor") in let perl := mkF (lit "perl") (lit "Perl") in
  select_type cmp0 (fun _ => None) [perl; php] (fun _ _ => None) (Some (lit "PHP")) (Some (lit "a.php")) [] = Some perl /\
  other cmp0 (ft_descr perl) (lit "PHP") /\ begins cmp0 (ft_descr php) (lit "PHP") /\
  select_type cmp0 (fun _ => None) [mkF (lit "php") (lit "php file")] (fun _ _ => None) (Some (lit "ph")) None [] = None.
Proof. split; [reflexivity|]. split; [split; [cbn; lia|discriminate]|]. split; [split; [cbn; lia|reflexivity]|reflexivity]. Qed.

(* the first lines, each with its end, up to and with the one that brings the sum of lengths over 500 *)
Definition sum_len (ls : list (list Z)) : Z := fold_right (fun l a => Z.of_nat (length l) + a) 0 ls.
Definition joined (ls : list (list Z)) : list Z := concat (map (fun l => l ++ [10]) ls).
Lemma text_start_ok : forall n lines total acc, total <= 500 -> exists k, (k <= n)%nat /\ (k <= length lines)%nat /\
  text_start n lines total acc = acc ++ joined (firstn k lines) /\
  (forall j, (j < k)%nat -> total + sum_len (firstn j lines) <= 500) /\
  (k = n \/ k = length lines \/ 500 < total + sum_len (firstn k lines)).
Proof.
  induction n as [|n IH]; intros lines total acc T.
  - exists 0%nat. cbn. rewrite app_nil_r. split; [lia|]. split; [lia|]. split; [reflexivity|]. split; [lia|]. left. reflexivity.
  - destruct lines as [|l r]; cbn [text_start].
    + exists 0%nat. cbn. rewrite app_nil_r. split; [lia|]. split; [lia|]. split; [reflexivity|]. split; [lia|]. right. left. reflexivity.
    + destruct (Z.ltb_spec 500 (total + Z.of_nat (length l))) as [O|O].
      * exists 1%nat. cbn [firstn length joined map concat sum_len fold_right]. rewrite app_nil_r. split; [lia|]. split; [lia|]. split; [reflexivity|]. split.
        -- intros [|j] J; [|lia]. cbn [firstn sum_len fold_right]. lia.
        -- right. right. lia.
      * destruct (IH r (total + Z.of_nat (length l)) (acc ++ l ++ [10]) O) as (k & K1 & K2 & E & LE & D).
        exists (S k). split; [lia|]. split; [cbn [length]; lia|]. split; [|split].
        -- rewrite E. unfold joined. cbn [firstn map concat]. rewrite <- !app_assoc. reflexivity.
        -- intros [|j] J; cbn [firstn sum_len fold_right]; [lia|]. pose proof (LE j ltac:(lia)) as L. unfold sum_len in L. lia.
        -- cbn [firstn sum_len fold_right length]. unfold sum_len in D. destruct D as [D|[D|D]]; [left|right; left|right; right]; lia.
Qed.
(* C74: without a type asked for, the choice gets the file name and the first k lines, each with a line feed; k is at most 4, and
   fewer only when there are no more or their lengths come to more than 500 *)
Theorem C74_text_start : forall cmp named types choose input lines, exists k,
  select_type cmp named types choose None input lines =
    choose (option_map file_part input) (joined (firstn k lines)) /\
  (k <= 4)%nat /\ (k <= length lines)%nat /\ (forall j, (j < k)%nat -> sum_len (firstn j lines) <= 500) /\
  (k = 4%nat \/ k = length lines \/ 500 < sum_len (firstn k lines)).
Proof.
  intros cmp named types choose input lines. destruct (text_start_ok 4 lines 0 [] ltac:(lia)) as (k & K1 & K2 & E & LE & D).
  exists k. unfold select_type. rewrite E. cbn [app]. split; [destruct input; reflexivity|]. split; [exact K1|]. split; [exact K2|]. split.
  - intros j J. pose proof (LE j J). lia.
  - destruct D as [D|[D|D]]; [left|right; left|right; right]; lia.
Qed.
Print Assumptions C74_text_start.
Example C74_text_start_nonvacuous : select_type cmp0 (fun _ => None) [] (fun f t => Some (mkF (match f with Some f => f | None => [] end) t)) None
  (Some (lit "/src/a.c")) [lit "one"; lit "two"; lit "three"; lit "four"; lit "five"] =
  Some (mkF (lit "a.c") (lit "one" ++ [10] ++ lit "two" ++ [10] ++ lit "three" ++ [10] ++ lit "four" ++ [10])).
Proof. reflexivity. Qed.

Lemma last_index_no c : forall s i, ~ In c s -> last_index c s i = -1.
Proof.
  induction s as [|a s IH]; intros i N; [reflexivity|]. cbn [last_index]. rewrite IH by (intros I; apply N; right; exact I).
  change (-1 =? -1) with true. cbv iota. destruct (Z.eqb_spec a c) as [->|_]; [exfalso; apply N; left; reflexivity|reflexivity].
Qed.
Lemma last_index_app c b : forall a i, 0 <= i -> ~ In c b -> last_index c (a ++ c :: b) i = i + Z.of_nat (length a).
Proof.
  induction a as [|x a IH]; intros i I N; cbn [app last_index].
  - rewrite last_index_no by exact N. change (-1 =? -1) with true. cbv iota. rewrite Z.eqb_refl. cbn. lia.
  - rewrite IH by (lia || exact N). cbn [length]. destruct (Z.eqb_spec (i + 1 + Z.of_nat (length a)) (-1)); [lia|]. lia.
Qed.
Lemma skip_part : forall (a : list Z) c b, skipn (Z.to_nat (0 + Z.of_nat (length a) + 1)) (a ++ c :: b) = b.
Proof.
  intros a c b. replace (Z.to_nat (0 + Z.of_nat (length a) + 1)) with (S (length a)) by lia.
  induction a as [|x a IH]; [reflexivity|]. cbn [length app]. rewrite skipn_cons. exact IH.
Qed.
(* C74: the name of the file is what follows the last separator, when the path has separators of one kind only *)
Theorem C74_file_name_partial : forall dir name, ~ In 47 name -> ~ In 92 name ->
  file_part name = name /\ file_part (dir ++ 92 :: name) = name /\ (~ In 92 dir -> file_part (dir ++ 47 :: name) = name).
Proof.
  intros dir name N1 N2. unfold file_part. split; [|split].
  - rewrite (last_index_no 92) by exact N2. change (-1 =? -1) with true. cbv iota. rewrite last_index_no by exact N1. reflexivity.
  - rewrite last_index_app by (lia || exact N2). destruct (Z.eqb_spec (0 + Z.of_nat (length dir)) (-1)); [lia|]. apply skip_part.
  - intros N. rewrite (last_index_no 92).
    + change (-1 =? -1) with true. cbv iota. rewrite last_index_app by (lia || exact N1). apply skip_part.
    + intros I. apply in_app_or in I. destruct I as [I|[I|I]]; [exact (N I)|discriminate I|exact (N2 I)].
Qed.
Print Assumptions C74_file_name_partial.
(* C74, false of the code: a backslash anywhere hides the slashes after it, though it may be a character of the name of a directory *)
Theorem C74_file_name_refuted : forall a b name, ~ In 92 b -> ~ In 92 name -> file_part (a ++ 92 :: b ++ 47 :: name) = b ++ 47 :: name.
Proof.
  intros a b name N1 N2. unfold file_part. rewrite last_index_app.
  - destruct (Z.eqb_spec (0 + Z.of_nat (length a)) (-1)); [lia|]. apply skip_part.
  - lia.
  - intros I. apply in_app_or in I. destruct I as [I|[I|I]]; [exact (N1 I)|discriminate I|exact (N2 I)].
Qed.
Print Assumptions C74_file_name_refuted.
Example C74_file_name_nonvacuous : file_part (lit "/src/lib/a.c") = lit "a.c" /\ file_part (lit "c:\src\a.c") = lit "a.c" /\
  file_part (lit "/odd\dir/a.c") = lit "dir/a.c".
Proof. split; [|split]; reflexivity. Qed.

Lemma rounds_len : forall fuel n, 0 < n < 10 ^ Z.of_nat fuel -> rounds fuel n = Z.of_nat (length (digits_rev fuel n)).
Proof.
  induction fuel as [|fuel IH]; intros n H; [reflexivity|]. cbn [rounds digits_rev]. destruct (Z.ltb_spec 0 n); [|lia].
  rewrite Nat2Z.inj_succ, Z.pow_succ_r in H by lia. assert (D : n / 10 < 10 ^ Z.of_nat fuel) by (apply Z.div_lt_upper_bound; lia).
  destruct (Z.ltb_spec n 10) as [L|L].
  - rewrite Z.div_small by lia. destruct fuel; cbn; reflexivity.
  - assert (1 <= n / 10) by (apply Z.div_le_lower_bound; lia). rewrite IH by lia. cbn [length]. lia.
Qed.
Lemma rounds_more : forall f m, 0 <= m < 10 ^ Z.of_nat f -> rounds (S f) m = rounds f m.
Proof.
  induction f as [|f IH]; intros m M; [cbn in *; destruct (Z.ltb_spec 0 m); [lia|reflexivity]|].
  change (rounds (S (S f)) m) with (if 0 <? m then 1 + rounds (S f) (m / 10) else 0).
  change (rounds (S f) m) with (if 0 <? m then 1 + rounds f (m / 10) else 0).
  destruct (Z.ltb_spec 0 m); [|reflexivity]. f_equal. rewrite Nat2Z.inj_succ, Z.pow_succ_r in M by lia. apply IH.
  split; [apply Z.div_pos; lia|apply Z.div_lt_upper_bound; lia].
Qed.
Lemma width_len n : 0 <= n <= 2147483647 -> width n = Z.of_nat (length (digits_rev 10 n)).
Proof.
  intros H. unfold width. destruct (Z.ltb_spec n 10) as [L|L].
  - rewrite Z.div_small by lia. cbn [digits_rev rounds]. destruct (Z.ltb_spec n 10); [reflexivity|lia].
  - rewrite <- (rounds_len 10 n); [|change (10 ^ Z.of_nat 10) with 10000000000; lia].
    change (rounds 10 n) with (if 0 <? n then 1 + rounds 9 (n / 10) else 0). destruct (Z.ltb_spec 0 n); [|lia].
    f_equal. apply rounds_more. change (10 ^ Z.of_nat 9) with 1000000000. split; [apply Z.div_pos; lia|apply Z.div_lt_upper_bound; lia].
Qed.
Lemma width_mono a b : 0 <= a <= b -> b <= 2147483647 -> width a <= width b.
Proof.
  intros H B. rewrite !width_len by lia.
  destruct (digits_ok a ltac:(lia)) as (_ & _ & NE & LO & HI). destruct (digits_ok b ltac:(lia)) as (_ & _ & NE' & LO' & HI').
  rewrite rev_length in LO, HI, LO', HI'.
  assert (P : (length (digits_rev 10 b) <> 0)%nat) by (intros E; apply NE'; apply length_zero_iff_nil; rewrite rev_length; exact E).
  apply HI; [lia|]. destruct (Z.lt_ge_cases a (10 ^ Z.of_nat (length (digits_rev 10 b)))) as [L|L]; [exact L|].
  pose proof (LO' (Z.of_nat (length (digits_rev 10 b))) ltac:(lia) ltac:(lia)). lia.
Qed.
(* C74: before line i of a text of count lines come spaces, the decimal digits of i, a colon and a space; and that is as long for
   every line of the text: as many characters as count has digits, and two *)
Theorem C74_line_numbers : forall count i, 0 <= i < count -> count <= 2147483647 -> exists pad ds,
  line_number count i = Ret (repeat 32 pad ++ ds ++ [58; 32]) /\ dec_val ds = i /\ forallb is_dec ds = true /\ ds <> [] /\
  (forall ds', ds = 48 :: ds' -> ds' = []) /\
  exists cs, of_int count = Ret cs /\ (pad + length ds = length cs)%nat.
Proof.
  intros count i H B. destruct (digits_ok i ltac:(lia)) as (V & F & NE & LO & HI). pose proof (width_mono i count ltac:(lia) B) as W.
  destruct (digits_ok count ltac:(lia)) as (_ & Fc & _ & _ & _).
  destruct (C72_number i ltac:(lia)) as (s & Es & _ & _ & _ & Z0).
  assert (Oi : of_int i = Ret (rev (digits_rev 10 i))).
  { unfold of_int, to_string. destruct (Z.ltb_spec i 0); [lia|]. apply ascii_read, dec_ascii, F. }
  assert (Oc : of_int count = Ret (rev (digits_rev 10 count))).
  { unfold of_int, to_string. destruct (Z.ltb_spec count 0); [lia|]. apply ascii_read, dec_ascii, Fc. }
  exists (Z.to_nat (width count - width i)), (rev (digits_rev 10 i)). unfold line_number. rewrite Oi. cbn [bind]. split; [reflexivity|].
  split; [exact V|]. split; [exact F|]. split; [exact NE|]. split.
  - rewrite Oi in Es. destruct (Z.ltb_spec i 0); [lia|]. cbn [app] in Es. remember (rev (digits_rev 10 i)) as ds. assert (E : s = ds) by congruence. rewrite <- E. exact Z0.
  - exists (rev (digits_rev 10 count)). split; [exact Oc|]. rewrite !rev_length. rewrite (width_len i), (width_len count) in * by lia. lia.
Qed.
Print Assumptions C74_line_numbers.
Example C74_line_numbers_nonvacuous : line_number 120 7 = Ret (lit "  7: ") /\ line_number 120 119 = Ret (lit "119: ") /\ line_number 10 0 = Ret (lit " 0: ").
Proof. split; [|split]; vm_compute; reflexivity. Qed.
