(** * Proofs about shared graph states, 2: no batch is lost, loading and releasing *)
From Coq Require Import String List Bool Arith Lia Permutation.
From Verif Require Import SharedModel SharedSpec SharedProofs.
Import ListNotations.
Local Open Scope list_scope.
Local Notation length := List.length.

Section proofs.
  Context {model batch out : Type} (load : nat -> string -> option model) (run : model -> batch -> option out).
  Notation execute := (execute load run).
  Notation step := (step load run).
  Notation transformed := (transformed load run).
  Implicit Types (sch : list (event batch)) (s : @process model batch out).

  (** ** Every call is answered *)
  Definition key := (nat * batch * string)%type.
  Definition pending_of (d : @dofn batch) : list key := match f_request d with Some r => [(f_pardo d, r_batch r, r_dir r)] | None => [] end.
  Definition logged (e : entry batch out) : key := (e_pardo e, e_batch e, e_dir e).
  Definition call_key (ps : list nat) (c : nat * batch * string) : key := let '(f, b, dir) := c in (nth f ps 0, b, dir).
  Lemma calls_snoc sch (e : event batch) : calls (sch ++ [e]) = calls sch ++ match e with Call f b dir => [(f, b, dir)] | _ => [] end.
  Proof. unfold calls. rewrite flat_map_app. cbn. rewrite app_nil_r. reflexivity. Qed.
  Lemma calls_set_up sch c : well_formed sch -> In c (calls sch) -> fst (fst c) < length (set_ups sch).
  Proof.
    intros W. induction W as [|sch p W IH|sch f b dir p W IH P T B|sch f W IH B|sch f p W IH P T B|sch W IH|sch o W IH].
    - intros [].
    - rewrite calls_snoc, set_ups_snoc, app_nil_r, app_length. intros I. specialize (IH I). lia.
    - rewrite calls_snoc, set_ups_snoc, app_nil_r. intros I. apply in_app_or in I as [I|[<-|[]]]; [auto|]. apply nth_error_Some. unfold pardo_of in P. cbn. congruence.
    - rewrite calls_snoc, set_ups_snoc, !app_nil_r. exact IH.
    - rewrite calls_snoc, set_ups_snoc, !app_nil_r. exact IH.
    - rewrite calls_snoc, set_ups_snoc, !app_nil_r. exact IH.
    - rewrite calls_snoc, set_ups_snoc, !app_nil_r. exact IH.
  Qed.
  Lemma answered sch : well_formed sch ->
    Permutation (map logged (log (execute sch)) ++ flat_map pending_of (dofns (execute sch))) (map (call_key (set_ups sch)) (calls sch)).
  Proof.
    intros W. induction W as [|sch p W IH|sch f b dir p W IH P T B|sch f W IH B|sch f p W IH P T B|sch W IH|sch o W IH].
    - constructor.
    - rewrite execute_snoc, calls_snoc, set_ups_snoc, app_nil_r. cbn [SharedModel.step log dofns]. rewrite flat_map_app. cbn. rewrite app_nil_r, IH.
      erewrite map_ext_in; [reflexivity|]. intros [[f b] dir] I. cbn. rewrite app_nth1; [reflexivity|]. exact (calls_set_up _ _ W I).
    - rewrite execute_snoc, calls_snoc, set_ups_snoc, app_nil_r, map_app, <- IH. destruct (dofn_pardo load run sch f p P) as (d & D & EP).
      destruct (well_formed_status load run _ W f d D) as [A C]. cbn [SharedModel.step]. rewrite D.
      assert (U : f_up d = true) by (destruct (f_up d); [reflexivity|destruct (T (proj1 A eq_refl))]). rewrite U.
      assert (R : f_request d = None) by (destruct (f_request d); [destruct (B (proj1 C ltac:(discriminate)))|reflexivity]). rewrite R.
      destruct (call_dofns load (execute sch) f d b dir) as (st & r & E & EB & ED & EL). rewrite E, EL, <- app_assoc. apply Permutation_app_head.
      pose proof (update_flat_map pending_of _ f d (DoFn (f_pardo d) st (Some r) true) D) as PU. unfold pending_of at 1 3 in PU. rewrite R in PU.
      cbn [f_request f_pardo app] in PU. rewrite PU, EB, ED, EP. cbn. unfold pardo_of in P. rewrite (nth_error_nth _ _ _ P). apply Permutation_cons_append.
    - rewrite execute_snoc, calls_snoc, set_ups_snoc, !app_nil_r, <- IH. cbn [SharedModel.step].
      assert (L : f < length (set_ups sch)).
      { destruct (lt_dec f (length (set_ups sch))) as [L|L]; [exact L|]. exfalso. destruct (never_busy sch f W ltac:(lia)) as [X _]. auto. }
      rewrite <- (set_ups_length load run) in L. destruct (nth_error (dofns (execute sch)) f) as [d|] eqn:D; [|apply nth_error_None in D; lia].
      destruct (well_formed_status load run _ W f d D) as [A C]. destruct (f_request d) as [r|] eqn:R; [|destruct (proj2 C B eq_refl)].
      destruct (return_dofns run (execute sch) f d r) as (st & oc & E & EL). rewrite E, EL, map_app, <- app_assoc. apply Permutation_app_head.
      pose proof (update_flat_map pending_of _ f d (DoFn (f_pardo d) st None true) D) as PU. unfold pending_of at 1 3 in PU. rewrite R in PU. exact PU.
    - rewrite execute_snoc, calls_snoc, set_ups_snoc, !app_nil_r, <- IH. cbn [SharedModel.step].
      destruct (dofn_pardo load run sch f p P) as (d & D & EP). destruct (well_formed_status load run _ W f d D) as [A C]. rewrite D.
      assert (R : f_request d = None) by (destruct (f_request d); [destruct (B (proj1 C ltac:(discriminate)))|reflexivity]). rewrite R.
      cbn [set_dofn log dofns]. apply Permutation_app_head.
      pose proof (update_flat_map pending_of _ f d (DoFn (f_pardo d) None None false) D) as PU. unfold pending_of at 1 3 in PU. rewrite R in PU. exact PU.
    - rewrite execute_snoc, calls_snoc, set_ups_snoc, !app_nil_r. exact IH.
    - rewrite execute_snoc, calls_snoc, set_ups_snoc, !app_nil_r. cbn [SharedModel.step]. destruct (collect_dofns (execute sch) o) as (E & EL & _).
      rewrite E, EL. exact IH.
  Qed.
  Lemma nothing_lost sch (D : nat -> string) : well_formed sch -> (forall f, ~ busy f sch) -> (forall p b dir, is_called sch p b dir -> dir = D p) ->
    Permutation (log (execute sch))
      (map (fun c => let '(f, b, dir) := c in let p := nth f (set_ups sch) 0 in Entry p b dir (transformed p b dir)) (calls sch)).
  Proof.
    intros W B H. pose proof (answered sch W) as P.
    assert (NP : flat_map pending_of (dofns (execute sch)) = []).
    { assert (F : forall d, In d (dofns (execute sch)) -> pending_of d = []).
      { intros d I. apply In_nth_error in I as (f & N). destruct (well_formed_status load run _ W f d N) as [_ C]. unfold pending_of.
        destruct (f_request d); [destruct (B f (proj1 C ltac:(discriminate)))|reflexivity]. }
      clear - F. induction (dofns (execute sch)) as [|d l IH]; [reflexivity|]. cbn. rewrite (F d (or_introl eq_refl)). apply IH. intros x I; apply F; right; exact I. }
    rewrite NP, app_nil_r in P.
    set (g := fun k : key => let '(p, b, dir) := k in Entry p b dir (transformed p b dir)).
    apply (Permutation_map g) in P. rewrite !map_map in P.
    rewrite (map_ext_in (fun x => g (logged x)) (fun e => e)) in P.
    - rewrite map_id in P. rewrite P. erewrite map_ext; [reflexivity|]. intros [[f b] dir]. reflexivity.
    - intros e I. destruct (right_model load run sch e I) as [C [O|(_ & b & dir & N & C')]].
      + unfold g, logged. rewrite <- O. destruct e; reflexivity.
      + exfalso. apply N. rewrite (H _ _ _ C), (H _ _ _ C'). reflexivity.
  Qed.

  (** ** Loading *)
  Definition held s (o : nat) : Prop := exists f d, nth_error (dofns s) f = Some d /\ f_up d = true /\ holds d o.
  Lemma count_map (p : nat) (l : list (object model)) : (forall o o' ob ob', nth_error l o = Some ob -> nth_error l o' = Some ob' -> o_handle ob = p -> o_handle ob' = p -> o = o') ->
    count_occ Nat.eq_dec (map o_handle l) p <= 1.
  Proof.
    induction l as [|x l IH]; intros H; cbn; [lia|]. destruct (Nat.eq_dec (o_handle x) p) as [E|N].
    - assert (Z' : count_occ Nat.eq_dec (map o_handle l) p = 0); [|lia]. apply count_occ_not_In. intros I. apply in_map_iff in I as (y & Ey & I).
      apply In_nth_error in I as (n & Ny). discriminate (H 0 (S n) x y eq_refl Ny E Ey).
    - apply IH. intros o o' ob ob' A B C D. pose proof (H (S o) (S o') ob ob' A B C D). congruence.
  Qed.
  Lemma loaded_once sch p : (forall f, pardo_of sch f p -> ~ torn_down sch f) -> count_occ Nat.eq_dec (loads (execute sch)) p <= 1.
  Proof.
    intros H. rewrite (g_loads _ _ _ _ (good_execute load run sch)).
    assert (INV : forall o ob, nth_error (objects (execute sch)) o = Some ob -> o_handle ob = p -> o_collected ob = false /\ held (execute sch) o).
    { revert H. induction sch as [|e sch IH] using rev_ind; intros H; [intros [|o] ob; discriminate|].
      assert (H' : forall f, pardo_of sch f p -> ~ torn_down sch f).
      { intros f P T. apply (H f (pardo_of_snoc _ _ _ _ P)). apply torn_down_snoc. auto. }
      specialize (IH H'). rewrite execute_snoc. pose proof (good_execute load run sch) as G.
      destruct e as [q|f b dir|f|f| |x]; cbn [SharedModel.step].
      - intros o ob N E. cbn [objects] in N. destruct (IH o ob N E) as (C & f & d & D & U & HO). split; [exact C|]. exists f, d. split; [apply nth_error_old, D|auto].
      - destruct (nth_error (dofns (execute sch)) f) as [d|] eqn:D; [|exact IH]. destruct (f_up d) eqn:U; [|exact IH]. destruct (f_request d) eqn:R; [exact IH|].
        assert (L : f < length (dofns (execute sch))) by (apply nth_error_Some; congruence).
        unfold call. destruct (f_state d) as [o'|] eqn:S'.
        + intros o ob N E. cbn [set_dofn objects] in N. destruct (IH o ob N E) as (C & g & d' & D' & U' & HO). split; [exact C|]. unfold held. cbn [set_dofn dofns].
          destruct (Nat.eq_dec f g) as [<-|NE]; [|exists g, d'; rewrite update_other by exact NE; auto].
          exists f. eexists. split; [apply update_same, L|]. split; [reflexivity|]. rewrite D in D'. injection D' as <-.
          destruct HO as [HO|(r & HO & _)]; [|congruence]. left. cbn. congruence.
        + unfold acquire, handle_of. destruct (dereference (execute sch) (f_pardo d)) as [o'|] eqn:DE.
          * intros o ob N E. cbn [set_dofn objects] in N. destruct (IH o ob N E) as (C & g & d' & D' & U' & HO). split; [exact C|]. unfold held. cbn [set_dofn dofns].
            destruct (Nat.eq_dec f g) as [<-|NE]; [|exists g, d'; rewrite update_other by exact NE; auto].
            rewrite D in D'. injection D' as <-. destruct HO as [HO|(r & HO & _)]; congruence.
          * pose proof (dereference_none _ _ (g_reference _ _ _ _ G) DE) as NL. destruct (load (f_pardo d) dir) as [m|] eqn:LO.
            -- intros o ob N E. cbn [set_dofn objects] in N. unfold held. cbn [set_dofn dofns]. apply nth_error_snoc in N as [N|[-> ->]].
               ++ destruct (IH o ob N E) as (C & g & d' & D' & U' & HO). split; [exact C|].
                  destruct (Nat.eq_dec f g) as [<-|NE]; [|exists g, d'; rewrite update_other by exact NE; auto].
                  rewrite D in D'. injection D' as <-. destruct HO as [HO|(r & HO & _)]; congruence.
               ++ split; [reflexivity|]. exists f. eexists. split; [apply update_same, L|]. split; [reflexivity|]. right. eexists. split; reflexivity.
            -- intros o ob N E. cbn [set_dofn objects] in N. destruct (IH o ob N E) as (C & g & d' & D' & U' & HO). split; [exact C|]. unfold held. cbn [set_dofn dofns].
               destruct (Nat.eq_dec f g) as [<-|NE]; [|exists g, d'; rewrite update_other by exact NE; auto].
               rewrite D in D'. injection D' as <-. destruct HO as [HO|(r & HO & _)]; congruence.
      - destruct (nth_error (dofns (execute sch)) f) as [d|] eqn:D; [|exact IH]. destruct (f_request d) as [r|] eqn:R; [|exact IH].
        assert (L : f < length (dofns (execute sch))) by (apply nth_error_Some; congruence).
        assert (OB : objects (return_ run (execute sch) f d r) = objects (execute sch)) by (unfold return_; destruct (r_state r); reflexivity).
        intros o ob N E. rewrite OB in N. destruct (IH o ob N E) as (C & g & d' & D' & U' & HO). split; [exact C|].
        destruct (Nat.eq_dec f g) as [<-|NE].
        + rewrite D in D'. injection D' as <-.
          assert (LV : live (execute sch) o (f_pardo d)) by (exact (g_held _ _ _ _ G f d o D HO)).
          unfold return_. destruct (r_state r) as [o2|] eqn:RS.
          * assert (LV2 : live (execute sch) o2 (f_pardo d)) by (apply (g_held _ _ _ _ G f d o2 D); right; exists r; auto).
            pose proof (g_reference _ _ _ _ G _ _ LV). pose proof (g_reference _ _ _ _ G _ _ LV2). assert (o2 = o) by congruence. subst o2.
            exists f. eexists. split; [cbn [dofns]; apply update_same, L|]. split; [reflexivity|left; reflexivity].
          * exfalso. destruct HO as [HO|(r' & HO & HO')]; [|congruence].
            (* a copy with a state does not load *)
            assert (X : forall sch f d r, nth_error (dofns (execute sch)) f = Some d -> f_request d = Some r -> r_state r = None -> f_state d = None).
            { clear. intros sch. induction sch as [|e sch IH] using rev_ind; [intros [|f] d r; discriminate|]. intros f d r. rewrite execute_snoc.
              destruct e as [q|g b dir|g|g| |x]; cbn [SharedModel.step].
              - cbn [dofns]. intros N. apply nth_error_snoc in N as [N|[_ ->]]; [exact (IH f d r N)|discriminate].
              - destruct (nth_error (dofns (execute sch)) g) as [d0|]; [|apply IH]. destruct (f_up d0); [|apply IH]. destruct (f_request d0); [apply IH|].
                unfold call. destruct (f_state d0) as [o'|] eqn:S'.
                + cbn [set_dofn dofns]. intros N. apply update_nth in N as [(-> & -> & _)|(_ & N)]; [intros [= <-]; discriminate|exact (IH f d r N)].
                + destruct (acquire load (execute sch) (f_pardo d0) dir) as [s' o'] eqn:A.
                  assert (ED : dofns s' = dofns (execute sch)).
                  { unfold acquire in A. destruct (dereference _ _); [|destruct (load _ _)]; injection A as <- <-; reflexivity. }
                  cbn [set_dofn dofns]. rewrite ED. intros N. apply update_nth in N as [(-> & -> & _)|(_ & N)]; [reflexivity|exact (IH f d r N)].
              - destruct (nth_error (dofns (execute sch)) g) as [d0|]; [|apply IH]. destruct (f_request d0) as [r0|]; [|apply IH].
                destruct (return_dofns run (execute sch) g d0 r0) as (st & oc & -> & _). intros N. apply update_nth in N as [(-> & -> & _)|(_ & N)]; [discriminate|exact (IH f d r N)].
              - destruct (nth_error (dofns (execute sch)) g) as [d0|]; [|apply IH]. destruct (f_request d0) as [r0|]; [apply IH|].
                cbn [set_dofn dofns]. intros N. apply update_nth in N as [(-> & -> & _)|(_ & N)]; [discriminate|exact (IH f d r N)].
              - apply IH.
              - destruct (collect_dofns (execute sch) x) as (-> & _). apply IH. }
            rewrite (X sch f d r D R RS) in HO. discriminate.
        + exists g, d'. split; [|auto]. destruct (return_dofns run (execute sch) f d r) as (st & oc & -> & _). rewrite update_other by exact NE. exact D'.
      - destruct (nth_error (dofns (execute sch)) f) as [d|] eqn:D; [|exact IH]. destruct (f_request d) eqn:R; [exact IH|].
        intros o ob N E. cbn [set_dofn objects] in N. destruct (IH o ob N E) as (C & g & d' & D' & U' & HO). split; [exact C|]. unfold held. cbn [set_dofn dofns].
        destruct (Nat.eq_dec f g) as [<-|NE]; [|exists g, d'; rewrite update_other by exact NE; auto].
        exfalso. rewrite D in D'. injection D' as <-. destruct (g_held _ _ _ _ G f d o D HO) as (ob' & N' & E' & _).
        assert (ob' = ob) by congruence. subst ob'. apply (H f); [|apply torn_down_snoc; auto]. apply pardo_of_snoc. unfold pardo_of.
        rewrite <- (g_pardos _ _ _ _ G), nth_error_map, D. cbn. congruence.
      - exact IH.
      - unfold collect. destruct (reachable (execute sch) x) eqn:RE; [exact IH|]. destruct (nth_error (objects (execute sch)) x) as [obx|] eqn:NX; [|exact IH].
        intros o ob N E. cbn [objects] in N. apply update_nth in N as [(-> & -> & _)|(NE & N)].
        + exfalso. cbn in E. destruct (IH x obx NX E) as (C & HH). assert (reachable (execute sch) x = true); [|congruence]. apply reachable_held. left. exact HH.
        + exact (IH o ob N E). }
    apply count_map. intros o o' ob ob' N N' E E'. destruct (INV o ob N E) as [C _], (INV o' ob' N' E') as [C' _].
    apply (one_copy load run sch o o' ob ob'); congruence.
  Qed.

  (** A ParDo alone keeps its graph: the map keeps the object that was acquired last. *)
  Definition kept s : Prop :=
    (objects s = [] /\ keepalive s = None) \/
    (exists ob, objects s = [ob] /\ o_collected ob = false /\
      (keepalive s = Some 0 \/
       (forall f d, nth_error (dofns s) f = Some d -> f_state d = None) /\
       exists f d r, nth_error (dofns s) f = Some d /\ f_up d = true /\ f_request d = Some r /\ r_state r = Some 0 /\ r_acquired r = true)).
  Lemma kept_execute p sch : (forall q, In q (set_ups sch) -> q = p) -> ~ In Clear sch -> kept (execute sch).
  Proof.
    induction sch as [|e sch IH] using rev_ind; intros H NC; [left; split; reflexivity|].
    assert (H' : forall q, In q (set_ups sch) -> q = p) by (intros q I; apply H; rewrite set_ups_snoc; apply in_or_app; auto).
    assert (NC' : ~ In Clear sch) by (intros I; apply NC, in_or_app; auto). specialize (IH H' NC').
    rewrite execute_snoc. pose proof (good_execute load run sch) as G.
    assert (PP : forall f d, nth_error (dofns (execute sch)) f = Some d -> f_pardo d = p).
    { intros f d D. apply H'. rewrite <- (g_pardos _ _ _ _ G). apply in_map, (nth_error_In _ _ D). }
    destruct e as [q|f b dir|f|f| |x]; cbn [SharedModel.step].
    - destruct IH as [[A B]|(ob & A & C & K)]; [left; auto|]. right. exists ob. split; [exact A|]. split; [exact C|]. destruct K as [K|(S' & f & d & r & N & R)]; [left; exact K|].
      right. cbn [dofns]. split.
      + intros g d' N'. apply nth_error_snoc in N' as [N'|[_ ->]]; [exact (S' g d' N')|reflexivity].
      + exists f, d, r. split; [apply nth_error_old, N|exact R].
    - destruct (nth_error (dofns (execute sch)) f) as [d|] eqn:D; [|exact IH]. destruct (f_up d) eqn:U; [|exact IH]. destruct (f_request d) eqn:R; [exact IH|].
      assert (L : f < length (dofns (execute sch))) by (apply nth_error_Some; congruence).
      unfold call. destruct (f_state d) as [o'|] eqn:S'.
      + destruct IH as [[A B]|(ob & A & C & K)].
        * left. auto.
        * right. exists ob. split; [exact A|]. split; [exact C|]. destruct K as [K|(ST & _)]; [left; exact K|]. rewrite (ST f d D) in S'. discriminate.
      + unfold acquire, handle_of. destruct (dereference (execute sch) (f_pardo d)) as [o'|] eqn:DE.
        * destruct IH as [[A B]|(ob & A & C & K)].
          -- left. auto.
          -- right. exists ob. split; [exact A|]. split; [exact C|]. destruct K as [K|(ST & g & d' & r & N & R')]; [left; exact K|]. right. cbn [set_dofn dofns]. split.
             ++ intros g' e N'. apply update_nth in N' as [(-> & -> & _)|(_ & N')]; [reflexivity|exact (ST g' e N')].
             ++ assert (f <> g) by (intros <-; destruct R' as (_ & R' & _); rewrite D in N; injection N as <-; congruence).
                exists g, d', r. rewrite update_other by assumption. auto.
        * pose proof (dereference_none _ _ (g_reference _ _ _ _ G) DE) as NL. rewrite (PP f d D) in *. destruct (load p dir) as [m|] eqn:LO.
          -- destruct IH as [[A B]|(ob & A & C & K)].
             ++ right. cbn [set_dofn objects dofns keepalive]. rewrite A. cbn. eexists. split; [reflexivity|]. split; [reflexivity|]. right. split.
                ** intros g e N'. apply update_nth in N' as [(-> & -> & _)|(_ & N')]; [reflexivity|].
                   destruct (f_state e) as [o|] eqn:SE; [|reflexivity]. destruct (g_held _ _ _ _ G g e o N' (or_introl SE)) as (obx & NX & _). rewrite A in NX. destruct o; discriminate.
                ** exists f. do 2 eexists. split; [apply update_same, L|]. cbn. auto.
             ++ exfalso. apply (NL 0). exists ob. rewrite A. split; [reflexivity|]. split; [|exact C].
                assert (NO : nth_error (objects (execute sch)) 0 = Some ob) by (rewrite A; reflexivity).
                destruct (g_objects _ _ _ _ G 0 ob NO) as (_ & b' & f' & P' & _). apply H'. exact (nth_error_In _ _ P').
          -- destruct IH as [[A B]|(ob & A & C & K)].
             ++ left. auto.
             ++ exfalso. apply (NL 0). exists ob. rewrite A. split; [reflexivity|]. split; [|exact C].
                assert (NO : nth_error (objects (execute sch)) 0 = Some ob) by (rewrite A; reflexivity).
                destruct (g_objects _ _ _ _ G 0 ob NO) as (_ & b' & f' & P' & _). apply H'. exact (nth_error_In _ _ P').
    - destruct (nth_error (dofns (execute sch)) f) as [d|] eqn:D; [|exact IH]. destruct (f_request d) as [r|] eqn:R; [|exact IH].
      assert (L : f < length (dofns (execute sch))) by (apply nth_error_Some; congruence).
      destruct IH as [[A B]|(ob & A & C & K)].
      + left. unfold return_. destruct (r_state r) as [o|] eqn:RS; [|auto].
        exfalso. destruct (g_held _ _ _ _ G f d o D (or_intror (ex_intro _ r (conj R RS)))) as (obx & NX & _). rewrite A in NX. destruct o; discriminate.
      + right. unfold return_. destruct (r_state r) as [o|] eqn:RS.
        * exists ob. split; [exact A|]. split; [exact C|]. left. cbn [keepalive].
          destruct (g_held _ _ _ _ G f d o D (or_intror (ex_intro _ r (conj R RS)))) as (obx & NX & _). rewrite A in NX. destruct o as [|[|o]]; try discriminate.
          destruct (r_acquired r) eqn:RA; [reflexivity|]. destruct K as [K|(ST & g & d' & r' & N & K)]; [exact K|].
          exfalso. (* a request that was not acquired has a state *)
          assert (X : forall sch f d r, nth_error (dofns (execute sch)) f = Some d -> f_request d = Some r -> r_acquired r = false -> f_state d <> None).
          { clear. intros sch. induction sch as [|e sch IH] using rev_ind; [intros [|f] d r; discriminate|]. intros f d r. rewrite execute_snoc.
            destruct e as [q|g b dir|g|g| |x]; cbn [SharedModel.step].
            - cbn [dofns]. intros N. apply nth_error_snoc in N as [N|[_ ->]]; [exact (IH f d r N)|discriminate].
            - destruct (nth_error (dofns (execute sch)) g) as [d0|]; [|apply IH]. destruct (f_up d0); [|apply IH]. destruct (f_request d0); [apply IH|].
              unfold call. destruct (f_state d0) as [o'|] eqn:S'.
              + cbn [set_dofn dofns]. intros N. apply update_nth in N as [(-> & -> & _)|(_ & N)]; [cbn; congruence|exact (IH f d r N)].
              + destruct (acquire load (execute sch) (f_pardo d0) dir) as [s' o'] eqn:A.
                assert (ED : dofns s' = dofns (execute sch)).
                { unfold acquire in A. destruct (dereference _ _); [|destruct (load _ _)]; injection A as <- <-; reflexivity. }
                cbn [set_dofn dofns]. rewrite ED. intros N. apply update_nth in N as [(-> & -> & _)|(_ & N)]; [intros [= <-]; discriminate|exact (IH f d r N)].
            - destruct (nth_error (dofns (execute sch)) g) as [d0|]; [|apply IH]. destruct (f_request d0) as [r0|]; [|apply IH].
              destruct (return_dofns run (execute sch) g d0 r0) as (st & oc & -> & _). intros N. apply update_nth in N as [(-> & -> & _)|(_ & N)]; [discriminate|exact (IH f d r N)].
            - destruct (nth_error (dofns (execute sch)) g) as [d0|]; [|apply IH]. destruct (f_request d0) as [r0|]; [apply IH|].
              cbn [set_dofn dofns]. intros N. apply update_nth in N as [(-> & -> & _)|(_ & N)]; [discriminate|exact (IH f d r N)].
            - apply IH.
            - destruct (collect_dofns (execute sch) x) as (-> & _). apply IH. }
          exact (X sch f d r D R RA (ST f d D)).
        * exists ob. split; [exact A|]. split; [exact C|]. destruct K as [K|(ST & g & d' & r' & N & U' & R' & RS' & RA')]; [left; exact K|]. right. cbn [dofns]. split.
          -- intros g' e N'. apply update_nth in N' as [(-> & -> & _)|(_ & N')]; [reflexivity|exact (ST g' e N')].
          -- assert (f <> g) by (intros <-; rewrite D in N; injection N as <-; congruence).
             exists g, d', r'. rewrite update_other by assumption. auto.
    - destruct (nth_error (dofns (execute sch)) f) as [d|] eqn:D; [|exact IH]. destruct (f_request d) eqn:R; [exact IH|].
      destruct IH as [[A B]|(ob & A & C & K)]; [left; auto|]. right. exists ob. split; [exact A|]. split; [exact C|].
      destruct K as [K|(ST & g & d' & r' & N & U' & R' & K)]; [left; exact K|]. right. cbn [set_dofn dofns]. split.
      + intros g' e N'. apply update_nth in N' as [(-> & -> & _)|(_ & N')]; [reflexivity|exact (ST g' e N')].
      + assert (f <> g) by (intros <-; rewrite D in N; injection N as <-; congruence).
        exists g, d', r'. rewrite update_other by assumption. auto.
    - exfalso. apply NC, in_or_app. right; left; reflexivity.
    - unfold collect. destruct (reachable (execute sch) x) eqn:RE; [exact IH|]. destruct (nth_error (objects (execute sch)) x) as [obx|] eqn:NX; [|exact IH].
      exfalso. destruct IH as [[A B]|(ob & A & C & K)]; [rewrite A in NX; destruct x; discriminate|]. rewrite A in NX. destruct x as [|[|x]]; try discriminate.
      assert (reachable (execute sch) 0 = true); [|congruence]. apply reachable_held. destruct K as [K|(_ & f & d & r & N & U & R & RS & _)]; [right; exact K|].
      left. exists f, d. split; [exact N|]. split; [exact U|]. right. exists r. auto.
  Qed.
  Lemma kept_alone sch p : (forall q, In q (set_ups sch) -> q = p) -> ~ In Clear sch -> length (loads (execute sch)) <= 1.
  Proof.
    intros H NC. rewrite (g_loads _ _ _ _ (good_execute load run sch)), map_length.
    destruct (kept_execute p sch H NC) as [[-> _]|(ob & -> & _)]; cbn; lia.
  Qed.

  (** ** Releasing *)
  Lemma collect_all s n : keepalive s = None -> (forall f d, nth_error (dofns s) f = Some d -> f_up d = false) ->
    let s' := fold_left step (map Collect (seq 0 n)) s in
    keepalive s' = None /\ dofns s' = dofns s /\ length (objects s') = length (objects s) /\
    forall o ob, nth_error (objects s') o = Some ob -> o < n -> o_collected ob = true.
  Proof.
    intros K U. induction n as [|n IH]; [cbn; repeat split; auto; intros; lia|]. rewrite seq_S, map_app, fold_left_app. cbn [map fold_left plus].
    set (t := fold_left step (map Collect (seq 0 n)) s) in *. cbv zeta in IH. destruct IH as (A & B & C & D).
    assert (RE : reachable t n = false).
    { apply not_true_is_false. rewrite <- reachable_held. intros [(f & d & N & UP & _)|X]; [|congruence]. rewrite B in N. rewrite (U f d N) in UP. discriminate. }
    cbn [SharedModel.step]. cbv zeta. unfold collect. rewrite RE. destruct (nth_error (objects t) n) as [ob|] eqn:N.
    - cbn [keepalive dofns objects]. rewrite update_length. repeat split; auto. intros o ob' N' L. apply update_nth in N' as [(-> & -> & _)|(NE & N')]; [reflexivity|].
      apply (D o ob' N'). lia.
    - repeat split; auto. intros o ob' N' L. destruct (Nat.eq_dec o n) as [->|NE]; [congruence|]. apply (D o ob' N'). lia.
  Qed.
  Lemma released sch rest : well_formed (sch ++ Clear :: rest) -> (forall f, ~ In (Return f) rest) ->
    (forall f p, pardo_of (sch ++ Clear :: rest) f p -> torn_down (sch ++ Clear :: rest) f) ->
    forall ob, In ob (objects (execute ((sch ++ Clear :: rest) ++ map Collect (seq 0 (length (objects (execute (sch ++ Clear :: rest)))))))) -> o_collected ob = true.
  Proof.
    intros W NR T ob I. set (full := sch ++ Clear :: rest) in *.
    assert (K : keepalive (execute full) = None).
    { unfold full. clear - NR. induction rest as [|e rest IH] using rev_ind; [rewrite execute_snoc; reflexivity|].
      rewrite app_comm_cons, app_assoc, execute_snoc. specialize (IH ltac:(intros f I; apply (NR f), in_or_app; auto)).
      set (s := execute (sch ++ Clear :: rest)) in *.
      assert (NE : forall f, e <> Return f) by (intros f ->; apply (NR f), in_or_app; right; left; reflexivity).
      destruct e as [q|f b dir|f|f| |x]; cbn [SharedModel.step]; try exact IH; try reflexivity.
      - destruct (nth_error (dofns s) f) as [d|]; [|exact IH]. destruct (f_up d); [|exact IH]. destruct (f_request d); [exact IH|].
        unfold call, acquire. destruct (f_state d); [exact IH|]. destruct (dereference _ _); [exact IH|]. destruct (load _ _); exact IH.
      - destruct (NE f eq_refl).
      - destruct (nth_error (dofns s) f) as [d|]; [|exact IH]. destruct (f_request d); exact IH.
      - destruct (collect_dofns s x) as (_ & _ & ->). exact IH. }
    assert (U : forall f d, nth_error (dofns (execute full)) f = Some d -> f_up d = false).
    { intros f d N. apply (well_formed_status load run full W f d N). apply (T f (f_pardo d)). unfold pardo_of.
      rewrite <- (g_pardos _ _ _ _ (good_execute load run full)), nth_error_map, N. reflexivity. }
    unfold SharedModel.execute in I. rewrite fold_left_app in I. fold (execute full) in I.
    destruct (collect_all (execute full) (length (objects (execute full))) K U) as (_ & _ & L & C). apply In_nth_error in I as (o & N).
    apply (C o ob N). rewrite <- L. apply nth_error_Some. congruence.
  Qed.
End proofs.
