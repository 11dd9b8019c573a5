(** A search over rational numbers for h = 2/5 and delta = 1/5. *)
From Coq Require Import QArith Bool Lia Lqa.
From Verif Require Import TukeyModel TukeySpec.
Open Scope Q_scope.

Definition q_lt (x y : Q) : bool := negb (Qle_bool y x).
Definition q_mid (x y : Q) : Q := Qred ((x + y) / 2).
Definition q_sub (x y : Q) : Q := Qred (x - y).
Definition q_abs (x : Q) : Q := if Qle_bool 0 x then x else - x.
Definition q_step : Q := 1 # 1000000.

Definition q_search : option (Q * Q) :=
  tukey_search q_mid (fun high low => q_lt (high - low) q_step)
    (fun e => q_lt e 0) (fun e => q_lt 0 e) (fun e => q_lt (q_abs e) q_step)
    (fun h d => d - (1 # 5)) (fun h d => h - (2 # 5))
    (fun p q => q_lt (q_abs (fst p - fst q)) q_step && q_lt (q_abs (snd p - snd q)) q_step)
    0 (1 - (1 # 10000000)) q_sub 11 (1 # 3) true.

Lemma q_ordered : ordered_numbers Qle 0 q_mid q_sub.
Proof.
  split; unfold q_mid, q_sub; intros; rewrite ?Qred_correct.
  - apply Qle_refl.
  - eapply Qle_trans; eassumption.
  - split.
    + apply Qle_shift_div_l; lra.
    + apply Qle_shift_div_r; lra.
  - split; lra.
Qed.

Lemma q_found : exists left right, q_search = Some (left, right)
  /\ Qle_bool (39 # 100) left = true /\ Qle_bool left (41 # 100) = true
  /\ Qle_bool (19 # 100) right = true /\ Qle_bool right (21 # 100) = true.
Proof. eexists. eexists. split; [vm_compute; reflexivity|]. vm_compute. auto. Qed.
