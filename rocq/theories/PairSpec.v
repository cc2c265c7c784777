(* PairSpec.v: what pair matching should find (specification for C21). *)
From Verif Require Export PairModel.
Local Open Scope Z_scope.

Section Spec.
Variables isS isE : nat -> bool.
(* +1 for a pair start, -1 for a pair end *)
Definition weight (x : lregion) : Z :=
  match lr_reg x with
  | Some g => (if isS g then 1 else 0) - (if isE g then 1 else 0)
  | None => 0
  end.
Definition total (l : list (Z * lregion)) : Z := fold_right (fun x a => weight (snd x) + a) 0 l.

(* the first place in [items] at which, starting from b0, starts and ends balance *)
Definition first_balanced (b0 : Z) (items : list (Z * lregion)) (res : option (Z * lregion)) : Prop :=
  match res with
  | Some x => exists pre post, items = pre ++ x :: post /\ b0 + total (pre ++ [x]) = 0 /\
                               forall p q, pre = p ++ q -> b0 + total p <> 0
  | None => forall p q, items = p ++ q -> b0 + total p <> 0
  end.

(* the regions of a text, line by line *)
Definition on_line (n : Z) (l : list lregion) : list (Z * lregion) := map (fun x => (n, x)) l.
Fixpoint lines_up (R : Z -> list lregion) (n : Z) (k : nat) : list (Z * lregion) :=
  match k with O => [] | S k' => on_line n (R n) ++ lines_up R (n + 1) k' end.
(* everything behind a place in line n, up to line [last], in reading order *)
Definition behind (R : Z -> list lregion) (n last : Z) (aft : list lregion) : list (Z * lregion) :=
  on_line n aft ++ lines_up R (n + 1) (Z.to_nat (last - n)).
(* everything before a place in line n, from line [first], nearest first *)
Definition ahead (R : Z -> list lregion) (n first : Z) (bef : list lregion) : list (Z * lregion) :=
  rev (lines_up R first (Z.to_nat (n - first)) ++ on_line n bef).

(* the region at a position: the last of those that contain it and are pair starts or ends *)
Definition pair_at (pos : Z) (x : lregion) : Prop :=
  lr_start x <= pos <= lr_end x /\ exists g, lr_reg x = Some g /\ (isS g = true \/ isE g = true).
Definition starts (x : lregion) : Prop := exists g, lr_reg x = Some g /\ isS g = true.

(* what a search in the lines [first..last] of R from position pos of line n should give *)
Definition pair_search (R : Z -> list lregion) (n pos first last : Z) (res : option pmatch) : Prop :=
  match res with
  | None => forall x, In x (R n) -> ~ pair_at pos x
  | Some m =>
      p_line m = n /\ exists bef aft, R n = bef ++ p_start m :: aft /\ pair_at pos (p_start m) /\
      (forall x, In x aft -> ~ pair_at pos x) /\
      (p_top m = true <-> starts (p_start m)) /\
      (p_top m = true -> first_balanced 1 (behind R n last aft) (p_end m)) /\
      (p_top m = false -> first_balanced (-1) (ahead R n first bef) (p_end m))
  end.
End Spec.
