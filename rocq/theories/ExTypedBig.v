(** A typed big value with an empty encoding (C32). *)
From Verif Require Import Base SipHash Hashing HashingProofs Fs Shard Router RouterPure Wpc Spec FileRep RowOps
  Compact Inv ShardOps Split Insert Open Merge Create Store Limits StoreRefine Kv Lists Queues Api Hist KvSpec
  HistInv KeySpace PlainSpec Plain ListSpec ListRep ListProg ListHist ThmList QueueSpec QueueRep QueueProg QueueHist ThmQueue
  TypedApi TypedSpec Typed Check Script ExStore ExList ExQueue ThmTyped.

(** The values of type [()]: the encoding has no bytes. *)
Definition unit_codec : codec unit := Codec (fun _ => []) (fun l => match l with [] => Some tt | _ => None end).
Notation tu c := (tstore_call u8 unit_codec 1 c).
(** A store of units: after set_big the value is not there; remove_big says that it was. With [set] it is there. *)
Theorem C32_empty_big_value_refuted : round_trips unit_codec /\
  exists (es : list event), happens es /\
    (exists rs : list (res reply), es = zip_with ECall [tu (TSetBig x61 tt); tu (TGetBig x61); tu (TRemoveBig x61); tu (TSet x61 tt); tu (TGet x61)] rs /\
      map (tstore_reply unit_codec) rs = [Ok (TBool false); Ok (TOpt None); Ok (TBool true); Ok (TOpt None); Ok (TOpt (Some tt))]).
Proof.
  split; [by intros []|].
  exists [ECall (tu (TSetBig x61 tt)) (Ok (YBool false)); ECall (tu (TGetBig x61)) (Ok (YOpt None)); ECall (tu (TRemoveBig x61)) (Ok (YBool true));
          ECall (tu (TSet x61 tt)) (Ok (YOut (RSet CreatedNew))); ECall (tu (TGet x61)) (Ok (YOut (RGet (Some []))))].
  split.
  - happens_with [GCmd (XCall (tu (TSetBig x61 tt))); GCmd (XCall (tu (TGetBig x61))); GCmd (XCall (tu (TRemoveBig x61))); GCmd (XCall (tu (TSet x61 tt))); GCmd (XCall (tu (TGet x61)))].
  - exists [Ok (YBool false); Ok (YOpt None); Ok (YBool true); Ok (YOut (RSet CreatedNew)); Ok (YOut (RGet (Some [])))]. split; reflexivity.
Qed.
