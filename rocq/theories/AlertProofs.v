(** Proofs about alerts. *)
From Coq Require Import String List Bool NArith ZArith Lia.
From Coq Require Import ZifyBool.
From Verif Require Import AlertModel AlertSpec.
Import ListNotations.
Open Scope Z_scope.

Section Alerts.
  Variable signed : N -> N -> bool.
  Variable content : N -> option alert.
  Variable my_version : Z.
  Variable my_sub : N.
  Notation process := (process_alert signed content my_version my_sub).
  Notation happens := (happens signed content my_version my_sub).
  Notation run := (run signed content my_version my_sub).

  Lemma names_false c id : names c id = false <-> a_cancel c < id /\ ~ In id (a_cancels c).
  Proof.
    unfold names. rewrite orb_false_iff. split; intros (A & B).
    - split; [lia|]. intros I. assert (E : existsb (Z.eqb id) (a_cancels c) = true).
      { apply existsb_exists. exists id. split; [exact I|lia]. }
      congruence.
    - split; [lia|]. destruct (existsb (Z.eqb id) (a_cancels c)) eqn:E; [|reflexivity].
      apply existsb_exists in E. destruct E as (x & I & X). apply Z.eqb_eq in X. subst. contradiction.
  Qed.

  (** What stays after the first loop. *)
  Definition staying (now : Z) (a : alert) (kept : list item) : list item :=
    filter (fun i => negb (cancels now a (i_alert i)) && in_effect now (i_alert i)) kept.
  Lemma staying_in now a kept i : In i (staying now a kept) <->
    In i kept /\ cancels now a (i_alert i) = false /\ in_effect now (i_alert i) = true.
  Proof.
    unfold staying. rewrite filter_In, andb_true_iff, negb_true_iff. reflexivity.
  Qed.

  (** The cases of processing. *)
  Inductive processed (now : Z) (kept : list item) (msg sig : N) : verdict -> Prop :=
  | P_throws : processed now kept msg sig Throws
  | P_same : processed now kept msg sig (Refuses kept)
  | P_late a i : content msg = Some a -> in_effect now a = true ->
      (a_id a = max_int -> final_form a = true) ->
      In i (staying now a kept) -> cancels now (i_alert i) a = true ->
      processed now kept msg sig (Refuses (staying now a kept))
  | P_again a i b : content msg = Some a -> in_effect now a = true ->
      (a_id a = max_int -> final_form a = true) ->
      (forall j, In j (staying now a kept) -> cancels now (i_alert j) a = false) ->
      In i (staying now a kept) -> i_msg i = msg ->
      processed now kept msg sig (Accepts (staying now a kept) b)
  | P_new a b : signed msg sig = true -> content msg = Some a -> in_effect now a = true ->
      (a_id a = max_int -> final_form a = true) ->
      (forall j, In j (staying now a kept) -> cancels now (i_alert j) a = false) ->
      processed now kept msg sig
        (Accepts ({| i_msg := msg; i_sig := sig; i_alert := a |} :: staying now a kept) b).
  Lemma process_cases now kept msg sig : processed now kept msg sig (process now kept msg sig).
  Proof.
    unfold process_alert. destruct (signed msg sig) eqn:G; [|constructor]. cbn [negb].
    destruct (content msg) as [a|] eqn:C; [|constructor].
    destruct (in_effect now a) eqn:E; [|constructor]. cbn [negb].
    destruct ((a_id a =? max_int) && negb (final_form a)) eqn:F; [constructor|].
    assert (F' : a_id a = max_int -> final_form a = true) by (destruct (final_form a); lia).
    fold (staying now a kept).
    destruct (existsb (fun i => cancels now (i_alert i) a) (staying now a kept)) eqn:X.
    - apply existsb_exists in X. destruct X as (i & I & X). now apply P_late with i.
    - assert (X' : forall j, In j (staying now a kept) -> cancels now (i_alert j) a = false).
      { intros j J. destruct (cancels now (i_alert j) a) eqn:Y; [|reflexivity].
        assert (T : existsb (fun i => cancels now (i_alert i) a) (staying now a kept) = true).
        { apply existsb_exists. now exists j. }
        congruence. }
      destruct (existsb (fun i => N.eqb (i_msg i) msg) (staying now a kept)) eqn:Y.
      + apply existsb_exists in Y. destruct Y as (i & I & Y). apply N.eqb_eq in Y. now apply P_again with i.
      + now apply P_new.
  Qed.

  (** ** Every history *)

  (** An invariant of what is kept follows from its being kept by processing. *)
  Lemma kept_invariant (P : list item -> Prop) (Q : event -> Prop) :
    (forall p now kept msg sig, Q (Tells p now msg sig) -> P kept ->
       match process now kept msg sig with Throws => True | Refuses k => P k | Accepts k _ => P k end) ->
    forall l s, Forall Q l -> P (s_kept s) -> P (s_kept (run s l)).
  Proof.
    intros H. induction l as [|e l IH]; intros s F Hs; [exact Hs|]. inversion F as [|? ? F1 F2]; subst.
    apply (IH (happens s e) F2). destruct e as [p now|p|p|p now msg sig]; try exact Hs. cbn [AlertModel.happens].
    destruct (known_to (s_peers s) p) as [known|]; [|exact Hs].
    destruct (existsb (N.eqb msg) known); [exact Hs|].
    specialize (H p now (s_kept s) msg sig F1 Hs).
    destruct (process now (s_kept s) msg sig); assumption.
  Qed.

  Definition genuine_list (k : list item) : Prop :=
    forall i, In i k -> signed (i_msg i) (i_sig i) = true /\ content (i_msg i) = Some (i_alert i).
  Definition apart_list (k : list item) : Prop :=
    forall i j, In i k -> In j k -> i_msg i <> i_msg j -> names (i_alert i) (a_id (i_alert j)) = false.

  Lemma staying_sub now a k i : In i (staying now a k) -> In i k.
  Proof. intros H. now apply staying_in in H. Qed.

  Lemma genuine_step now kept msg sig : genuine_list kept ->
    match process now kept msg sig with Throws => True | Refuses k => genuine_list k | Accepts k _ => genuine_list k end.
  Proof.
    intros G. destruct (process_cases now kept msg sig) as [| |a i C E F I X|a i b C E F X I M|a b S C E F X];
      [exact I|exact G| | |].
    1, 2: intros j J; apply G; now apply staying_sub in J.
    intros j [<-|J]; [now split|]. apply G. now apply staying_sub in J.
  Qed.
  Lemma apart_step now kept msg sig : apart_list kept ->
    match process now kept msg sig with Throws => True | Refuses k => apart_list k | Accepts k _ => apart_list k end.
  Proof.
    intros A. destruct (process_cases now kept msg sig) as [| |a i C E F I X|a i b C E F X I M|a b S C E F X];
      [exact I|exact A| | |].
    1, 2: intros j j' J J'; apply A; [now apply staying_sub in J|now apply staying_sub in J'].
    intros i j [<-|I] [<-|J] D; cbn [i_msg i_alert] in *.
    - congruence.
    - apply staying_in in J. destruct J as (_ & J & _). unfold cancels in J. now rewrite E in J.
    - pose proof (X i I) as Y. apply staying_in in I. destruct I as (_ & _ & I'). unfold cancels in Y.
      now rewrite I' in Y.
    - apply A; [now apply staying_sub in I|now apply staying_sub in J|exact D].
  Qed.
  Lemma all_true (l : list event) : Forall (fun _ => True) l.
  Proof. induction l; now constructor. Qed.

  Lemma run_genuine l : genuine signed content (run nobody l).
  Proof.
    apply (kept_invariant genuine_list (fun _ => True)); [|apply all_true|intros i []].
    intros p now kept msg sig _. apply genuine_step.
  Qed.
  Lemma run_apart_list l : apart_list (s_kept (run nobody l)).
  Proof.
    apply (kept_invariant apart_list (fun _ => True)); [|apply all_true|intros i j []].
    intros p now kept msg sig _. apply apart_step.
  Qed.
  Lemma run_apart l : apart (run nobody l).
  Proof. intros i j I J D. apply names_false. now apply (run_apart_list l). Qed.

  (** ** The alert that the key is compromised *)

  Definition formed (k : list item) : Prop :=
    forall i, In i k -> a_id (i_alert i) = max_int -> final_form (i_alert i) = true.
  Lemma formed_step now kept msg sig : formed kept ->
    match process now kept msg sig with Throws => True | Refuses k => formed k | Accepts k _ => formed k end.
  Proof.
    intros G. destruct (process_cases now kept msg sig) as [| |a i C E F I X|a i b C E F X I M|a b S C E F X];
      [exact I|exact G| | |].
    1, 2: intros j J; apply G; now apply staying_sub in J.
    intros j [<-|J]; [exact F|]. apply G. now apply staying_sub in J.
  Qed.
  Lemma final_fields a : final_form a = true -> a_expires a = max_int /\ a_cancel a = max_int - 1.
  Proof. unfold final_form. rewrite !andb_true_iff. lia. Qed.

  Definition has_final (k : list item) : Prop := exists i, In i k /\ a_id (i_alert i) = max_int.
  Definition all_final (k : list item) : Prop := forall i, In i k -> a_id (i_alert i) = max_int.

  Lemma has_all k : bounded content -> genuine_list k -> apart_list k -> formed k -> has_final k -> all_final k.
  Proof.
    intros B G A F (f & If & Ef) i I.
    destruct (N.eq_dec (i_msg f) (i_msg i)) as [E|D].
    - destruct (G f If) as (_ & Cf), (G i I) as (_ & Ci). rewrite E, Ci in Cf. inversion Cf. congruence.
    - pose proof (A f i If I D) as X. apply names_false in X. destruct X as (X & _).
      destruct (final_fields _ (F f If Ef)) as (_ & Q). destruct (G i I) as (_ & Ci). apply B in Ci.
      unfold max_int in *. lia.
  Qed.
  Definition good (k : list item) : Prop := genuine_list k /\ apart_list k /\ formed k /\ has_final k.
  Definition mild (e : event) : Prop :=
    match e with
    | Tells _ now msg _ => now < max_int /\
        forall a, content msg = Some a -> a_id a <> max_int -> names a max_int = false
    | _ => True
    end.
  Lemma good_step p now kept msg sig : bounded content -> mild (Tells p now msg sig) -> good kept ->
    match process now kept msg sig with Throws => True | Refuses k => good k | Accepts k _ => good k end.
  Proof.
    intros B (T & N) (G & A & F & H).
    pose proof (genuine_step now kept msg sig G) as G'. pose proof (apart_step now kept msg sig A) as A'.
    pose proof (formed_step now kept msg sig F) as F'.
    pose proof (has_all kept B G A F H) as All.
    assert (Stay : forall a, content msg = Some a -> a_id a <> max_int -> has_final (staying now a kept)).
    { intros a C D. destruct H as (f & If & Ef). exists f. split; [|exact Ef]. apply staying_in.
      split; [exact If|]. split.
      - unfold cancels. rewrite Ef. destruct (negb (in_effect now a)); [reflexivity|now apply N].
      - unfold in_effect. destruct (final_fields _ (F f If Ef)) as (-> & _). lia. }
    assert (Some_ : forall a i, In i (staying now a kept) -> has_final (staying now a kept)).
    { intros a i I. exists i. split; [exact I|]. apply All. now apply staying_sub in I. }
    destruct (process_cases now kept msg sig) as [| |a i C E Fa I X|a i b C E Fa X I M|a b S C E Fa X];
      [exact I|exact (conj G (conj A (conj F H)))| | |]; (split; [exact G'|]; split; [exact A'|]; split; [exact F'|]).
    - now apply Some_ with i.
    - now apply Some_ with i.
    - destruct (Z.eq_dec (a_id a) max_int) as [Q|Q].
      + eexists. split; [now left|exact Q].
      + destruct (Stay a C Q) as (f & If & Ef). exists f. split; [now right|exact Ef].
  Qed.
  Lemma run_formed l : formed (s_kept (run nobody l)).
  Proof.
    apply (kept_invariant formed (fun _ => True)); [|apply all_true|intros i []].
    intros p now kept msg sig _. apply formed_step.
  Qed.
  Lemma run_app s l l' : run s (l ++ l') = run (run s l) l'.
  Proof. apply fold_left_app. Qed.
  Lemma final_stays l l' : bounded content -> compromised (run nobody l) -> no_override content l' ->
    compromised (run nobody (l ++ l')) /\ only_compromised (run nobody (l ++ l')).
  Proof.
    intros B H N. rewrite run_app.
    assert (R : good (s_kept (run (run nobody l) l'))).
    { apply (kept_invariant good mild).
      - intros p now kept msg sig M. now apply good_step with p.
      - apply Forall_forall. intros e I. destruct e as [| | |p now msg sig]; try exact Logic.I.
        destruct (N p now msg sig I) as (T & X). split; [exact T|]. intros a C D. apply names_false. now apply X.
      - split; [apply run_genuine|]. split; [apply run_apart_list|]. split; [apply run_formed|exact H]. }
    destruct R as (G & A & F & H'). split; [exact H'|]. exact (has_all _ B G A F H').
  Qed.

  (** ** The command *)

  Definition told (t : Z) (s : state) : Prop :=
    forall i x, In i (s_kept s) -> t < a_expires (i_alert i) -> In x (s_peers s) -> In (i_msg i) (snd x).
  Lemma known_in l p k : known_to l p = Some k -> exists q, In (q, k) l.
  Proof.
    induction l as [|(q, k') l IH]; [discriminate|]. cbn. destruct (N.eqb p q).
    - intros E. inversion E; subst. exists q. now left.
    - intros E. destruct (IH E) as (r & R). exists r. now right.
  Qed.
  Lemma told_step t s e : told t s -> (forall p, e <> JoinsShort p) -> t <= time_of e t ->
    told (time_of e t) (happens s e).
  Proof.
    intros T J L. destruct e as [p now|p|p|p now msg sig]; cbn [time_of] in *.
    - intros i x I E X. cbn [AlertModel.happens s_kept s_peers] in *. destruct X as [<-|X].
      + apply in_map, filter_In. split; [exact I|]. unfold in_effect. lia.
      + apply (T i x); [exact I|lia|exact X].
    - now destruct (J p).
    - intros i x I E X. cbn [AlertModel.happens s_kept s_peers] in *. apply filter_In in X. apply (T i x); [exact I|exact E|apply X].
    - assert (T' : told now s) by (intros i x I E; apply T; [exact I|lia]).
      cbn [AlertModel.happens]. destruct (known_to (s_peers s) p) as [known|]; [|exact T'].
      destruct (existsb (N.eqb msg) known); [exact T'|].
      destruct (process_cases now (s_kept s) msg sig) as [| |a i C E F I X|a i b C E F X I M|a b S C E F X];
        try exact T'; intros j x Jn Ej Xn; cbn [s_kept s_peers] in *.
      + apply (T' j x); [now apply staying_sub in Jn|exact Ej|exact Xn].
      + apply in_map_iff in Xn. destruct Xn as (y & <- & Y). right. apply (T' j y); [now apply staying_sub in Jn|exact Ej|exact Y].
      + apply in_map_iff in Xn. destruct Xn as (y & <- & Y). destruct Jn as [<-|Jn]; [now left|]. right.
        apply (T' j y); [now apply staying_sub in Jn|exact Ej|exact Y].
  Qed.
  Lemma told_run l : forall t s, told t s -> regular t l -> told (last_time t l) (run s l).
  Proof.
    induction l as [|e l IH]; intros t s T R; [exact T|]. destruct R as (J & L & R). cbn [last_time].
    apply (IH (time_of e t) (happens s e)); [|exact R]. now apply told_step.
  Qed.
  Lemma once t l p now msg sig : regular t l -> last_time t l <= now ->
    s_run (happens (run nobody l) (Tells p now msg sig)) <> s_run (run nobody l) ->
    s_run (happens (run nobody l) (Tells p now msg sig)) = msg :: s_run (run nobody l) /\
    ~ In msg (map i_msg (s_kept (run nobody l))).
  Proof.
    intros R L D. set (s := run nobody l) in *.
    assert (T : told (last_time t l) s) by (apply told_run; [intros i x []|exact R]).
    cbn [AlertModel.happens] in D |- *. destruct (known_to (s_peers s) p) as [known|] eqn:K; [|congruence].
    destruct (existsb (N.eqb msg) known) eqn:Kn; [congruence|].
    assert (Out : ~ In msg known).
    { intros I. assert (existsb (N.eqb msg) known = true); [|congruence].
      apply existsb_exists. exists msg. split; [exact I|apply N.eqb_refl]. }
    destruct (known_in _ _ _ K) as (q & Q).
    assert (Fresh : forall a, content msg = Some a -> in_effect now a = true -> ~ In msg (map i_msg (s_kept s))).
    { intros a C E I. apply in_map_iff in I. destruct I as (i & M & I).
      destruct (run_genuine l i I) as (_ & Ci). rewrite M, C in Ci. inversion Ci; subst a.
      unfold in_effect in E. apply Out. rewrite <- M. apply (T i (q, known)); [exact I|lia|exact Q]. }
    destruct (process_cases now (s_kept s) msg sig) as [| |a i C E F I X|a i b C E F X I M|a b S C E F X];
      cbn [s_run] in *; try congruence.
    - destruct b; [|congruence]. split; [reflexivity|]. now apply (Fresh a).
    - destruct b; [|congruence]. split; [reflexivity|]. now apply (Fresh a).
  Qed.
End Alerts.
