(** * Examples of per-key statistics in a file *)
From Coq Require Import String Ascii List ZArith DecimalString.
From Verif Require Import PerKeyFileModel PerKeyFileSpec.
Import ListNotations.
Local Open Scope string_scope.
Local Open Scope list_scope.

(** Integers in decimal. *)
Definition ex_show (z : Z) : string := NilZero.string_of_int (Z.to_int z).
Definition ex_read (s : string) : Z :=
  match NilZero.int_of_string s with Some i => Z.of_int i | None => 0%Z end.
(** The same, read as float32. *)
Definition ex_read32 (s : string) : Z := float32_of_Z (ex_read s).
Definition ex_sha1 (s : string) : string := match s with String c s => (s ++ String c "")%string | _ => s end.

Definition ex_stats : list (string * (Z * Z)) := [("paris", (-3, 12)%Z); ("", (5, 5)%Z); ("rome", (7, 100)%Z)].
Definition ex_city : list (string * (Z * Z)) := [("new york", (-3, 12)%Z); ("rome", (7, 100)%Z)].
Definition ex_cities : list (string * (Z * Z)) := [("new york", (-3, 12)%Z); ("new jersey", (7, 100)%Z)].
Definition ex_large : list (string * (Z * Z)) := [("a", (16777217, 4)%Z)].

Ltac no_char := let C := fresh in intros C; vm_compute in C; repeat (destruct C as [C|C]; [discriminate C|]); exact C.
Ltac readable := split; [discriminate|]; split; [no_char|]; split; [split; [split; no_char | no_char] | reflexivity].
Lemma ex_stats_words : Forall (fun kv => one_word (fst kv)) ex_stats.
Proof. unfold ex_stats. repeat (apply Forall_cons || apply Forall_nil); (split; [split|]); no_char. Qed.
Lemma ex_stats_readable : Forall (fun kv => readable ex_show ex_read (fst (snd kv)) /\ readable ex_show ex_read (snd (snd kv))) ex_stats.
Proof. unfold ex_stats. repeat (apply Forall_cons || apply Forall_nil); split; readable. Qed.
Lemma ex_stats_keys : NoDup (map fst ex_stats).
Proof. repeat constructor; cbn; intros C; repeat (destruct C as [C|C]; [discriminate C|]); exact C. Qed.
Lemma ex_city_lines : Forall (fun kv => one_line (fst kv)) ex_city.
Proof. unfold ex_city. repeat (apply Forall_cons || apply Forall_nil); split; no_char. Qed.
Lemma ex_city_readable : Forall (fun kv => readable ex_show ex_read (fst (snd kv)) /\ readable ex_show ex_read (snd (snd kv))) ex_city.
Proof. unfold ex_city. repeat (apply Forall_cons || apply Forall_nil); split; readable. Qed.
Lemma ex_city_first : Forall2 (fun kv w => first_word (fst kv) w) ex_city ["new"; "rome"].
Proof.
  unfold ex_city. constructor; [|constructor; [|constructor]]; (split; [no_char|]).
  - right. exists "york". reflexivity.
  - left. reflexivity.
Qed.
Lemma ex_cities_lines : Forall (fun kv => one_line (fst kv)) ex_cities.
Proof. unfold ex_cities. repeat (apply Forall_cons || apply Forall_nil); split; no_char. Qed.
Lemma ex_cities_readable : Forall (fun kv => readable ex_show ex_read (fst (snd kv)) /\ readable ex_show ex_read (snd (snd kv))) ex_cities.
Proof. unfold ex_cities. repeat (apply Forall_cons || apply Forall_nil); split; readable. Qed.
Lemma ex_large_words : Forall (fun kv => one_word (fst kv)) ex_large.
Proof. unfold ex_large. repeat (apply Forall_cons || apply Forall_nil); (split; [split|]); no_char. Qed.
Lemma ex_large_readable : Forall (fun kv => readable ex_show ex_read (fst (snd kv)) /\ readable ex_show ex_read (snd (snd kv))) ex_large.
Proof. unfold ex_large. repeat (apply Forall_cons || apply Forall_nil); split; readable. Qed.
Lemma ex_words_apart : NoDup ["new"; "rome"].
Proof. repeat constructor; cbn; intros C; repeat (destruct C as [C|C]; [discriminate C|]); exact C. Qed.
Lemma ex_city_keys : NoDup (map fst ex_city).
Proof. repeat constructor; cbn; intros C; repeat (destruct C as [C|C]; [discriminate C|]); exact C. Qed.

(** Zeros are not the statistics of a known key. *)
Lemma ex_city_wrong : ~ statistics_of 0%Z ex_city "new york" (0, 0)%Z.
Proof.
  intros H. inversion H as [v' I E | NI E].
  - cbn in I. repeat (destruct I as [I|I]; [discriminate I|]). exact I.
  - apply NI. now left.
Qed.
Lemma ex_city_wrong_unknown : ~ statistics_of 0%Z ex_city "new" (-3, 12)%Z.
Proof. intros H. inversion H as [v' I E |]. cbn in I. repeat (destruct I as [I|I]; [discriminate I|]). exact I. Qed.
Lemma ex_large_wrong : ~ Forall2 (statistics_of 0%Z ex_large) ["a"] [(16777216, 4)%Z].
Proof.
  intros R. inversion R as [|k v ? ? H _]; subst. inversion H as [v' I E |].
  cbn in I. repeat (destruct I as [I|I]; [discriminate I|]). exact I.
Qed.
