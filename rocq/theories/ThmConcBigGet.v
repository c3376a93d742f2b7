(** get_big that overlaps writers (C64). *)
From Verif Require Import Base Hashing HashingProofs Fs Shard Router RouterPure Wpc Spec FileRep RowOps
  Compact Inv ShardOps Split Insert Open Merge Create Store Limits StoreRefine Kv Lists Queues Api Hist KvSpec
  HistInv KeySpace ListSpec ListRep ListProg ListHist ThmList QueueSpec QueueRep QueueProg QueueHist ThmQueue
  Conc ConcSpec ConcMain ThmConc BigCrash ConcBigGet.
Implicit Types (cfg : config) (s : store) (es : list cevent) (c : cstate) (n : nat) (hs : list choice) (k : bytes).

(** ** C64 *)
(** A store with any history, with crashes; then any number [n] of threads make any calls, except for queue
    calls with the key [k], with splits and compactions of shards running, scheduled in any way.  Whatever a
    call of get_big for [k] overlaps with: when the thread [a] returns from it without an error, the result is
    nothing or the concatenation of pieces, each of which is a piece of a value that was given to set_big for
    [k] before that moment.  So no byte that was not given, no piece of another key and no record of the queue
    ever shows up in a value.
    Missing: the pieces may be of different values, and some may be missing ([C64_get_big_is_atomic_refuted]). *)
Theorem C64_get_big_returns_pieces_partial : forall k cfg0 s0 (es0 : list event) cfg s n hs es c,
  created cfg0 s0 -> hist (big_guard_crash k) cfg0 s0 es0 cfg s ->
  crun cfg calm (conc s n) hs es c -> (forall a qc, EvCall a (CQueue k qc) ∉ es) ->
  forall es1 a y es2, es = es1 ++ EvRet a (Ok y) :: es2 -> pending ∅ es1 !! a = Some (CBig k BGet) ->
  exists ps, (forall p, p ∈ ps -> exists v, given_big k es0 es1 v /\ piece_of p v) /\
    y = YOpt (match ps with [] => None | _ => Some (concat ps) end).
Proof.
  intros k cfg0 s0 es0 cfg s n hs es c Hc Hh Hr Hok es1 a y es2 E Hp.
  destruct (hist_lift _ _ _ (given_lifts k) cfg0 s0 es0 cfg s true ∅ (fun _ => False) Hh (created_ok _ _ Hc)) as (x & M & V & H1 & H2 & H3 & _).
  { intros i v Hv. by rewrite lookup_empty in Hv. }
  destruct (conc_run _ _ _ _ _ _ _ _ H2 Hr) as (A & os & _ & Ha & _).
  destruct (arun_prefix _ _ _ _ Ha _ _ _ E) as [A1 Ha1].
  assert (Hgiven : forall v, V v -> given_big k es0 es1 v).
  { intros v Hv. destruct (given_trace _ _ _ _ _ _ H1 v Hv) as [[]|(e & He & [[r ->]| ->])]; [left; by exists r|right; by left]. }
  assert (Hsub : forall b cl, EvCall b cl ∈ es1 ++ [EvRet a (Ok y)] -> EvCall b cl ∈ es1).
  { intros b cl H. apply elem_of_app in H as [H|H]; [done|]. apply elem_of_list_singleton in H. done. }
  destruct (arun_puts cfg k (pieces_of (given_big k es0 es1)) _ _ _ Ha1 (pieces_of_ne _)) with (Q := (∅ : gmap nat call)) (es1 := es1) (a := a) (y := y) (es2 := ([] : list cevent))
    as (c0 & K1 & K2).
  - intros b cl Hin. apply Hsub in Hin. split.
    + intros qc ->. apply (Hok b qc). rewrite E. apply elem_of_app. by left.
    + intros v -> p Hpc. exists v. split; [|done]. right. right. by exists b.
  - cbn [a_map]. eapply pieces_in_mono; [|exact H3]. intros p (v & G1 & G2). exists v. split; [by apply Hgiven|done].
  - intros b p Hb. cbn [a_ths] in Hb. by rewrite lookup_empty in Hb.
  - reflexivity.
  - rewrite Hp in K1. injection K1 as <-. destruct (K2 eq_refl) as (ps & P1 & ->). rewrite Forall_forall in P1. exists ps. split; [exact P1|].
    f_equal. destruct ps as [|p ps]; [done|]. assert (p <> []) as Hne by (eapply pieces_of_ne, P1; by left). cbn [concat]. by destruct p.
Qed.
