(** Calls that take a lock several times and read between the critical sections.

    A generalization of the section "Critical sections" of ConcLock.v. *)
From Verif Require Import Base Hashing HashingProofs Fs Shard Router Store Kv KvSpec Limits Lists Queues Api KeySpace Spec Hist PlainSpec Plain Conc ConcSpec ConcLin ConcLock ConcSeen.

(** ** Programs up to the nesting of binds *)
Fixpoint keq {A} (p q : kprog A) : Prop :=
  match p with
  | KRet a => q = KRet a
  | KFail e => q = KFail e
  | KVis o k => exists k', q = KVis o k' /\ forall x, keq (k x) (k' x)
  end.
Lemma keq_refl {A} (p : kprog A) : keq p p.
Proof. induction p as [a|e|X o k IH]; cbn [keq]; [done|done|]. by exists k. Qed.
Lemma keq_trans {A} (p : kprog A) : forall q r, keq p q -> keq q r -> keq p r.
Proof.
  induction p as [a|e|X o k IH]; intros q r; cbn [keq]; [by intros ->|by intros ->|]. intros (k' & -> & H1) (k2 & -> & H2). exists k2. split; [done|].
  intros x. by eapply IH.
Qed.
Lemma keq_sym {A} (p : kprog A) : forall q, keq p q -> keq q p.
Proof.
  induction p as [a|e|X o k IH]; intros q; cbn [keq]; [by intros ->|by intros ->|]. intros (k' & -> & H1). cbn [keq]. exists k. split; [done|].
  intros x. by apply IH.
Qed.
Lemma keq_bind {A B} (p : kprog A) (f f' : A -> kprog B) : forall q, keq p q -> (forall x, keq (f x) (f' x)) -> keq (kbind p f) (kbind q f').
Proof.
  induction p as [a|e|X o k IH]; intros q; cbn [keq kbind]; [intros -> H; apply H|by intros ->|]. intros (k' & -> & H1) H2. cbn [kbind].
  exists (fun x => kbind (k' x) f'). split; [done|]. intros x. by apply IH.
Qed.
Lemma keq_assoc {A B C} (p : kprog A) (f : A -> kprog B) (g : B -> kprog C) : keq (kbind (kbind p f) g) (kbind p (fun x => kbind (f x) g)).
Proof.
  induction p as [a|e|X o k IH]; cbn [kbind keq]; [apply keq_refl|done|]. eexists. split; [reflexivity|]. exact IH.
Qed.

Lemma total_perms (X Y : list (nat * N)) : X ≡ₚ Y -> total X = total Y.
Proof. induction 1 as [|[? ?] ? ? _ IH|[? ?] [? ?] ?|? ? ? _ IH1 _ IH2]; cbn [total]; lia. Qed.
Section sess.
  Context {S : Type} (cfg : config) (i : N) (K : bytes -> Prop) (F : bytes -> bool) (HF : forall k, F k = true -> K k).
  (** [R B M l]: outside critical sections the map [M] represents the collection [l], and calls
      of total weight [B] may still be made; [V]: what holds also within critical sections;
      [G]: a condition that every raw operation keeps. *)
  Context (R : N -> kvmap -> S -> Prop) (V : kvmap -> S -> Prop) (G : kvmap -> Prop) (w : call -> N).
  Context (spec : list S -> S -> call -> res reply -> S -> Prop) (mid : S -> call -> S -> Prop) (Gc : call -> Prop).
  (** [top H l]: [l] is the state after those in [H], as far as the calls can tell. *)
  Context (top : list S -> S -> Prop).
  Context (Gok : forall a (M : kvmap) lk p (M' : kvmap) lk' p', kop_step cfg a M lk p M' lk' p' -> G M -> G M').
  Context (Rloc : forall B (M M' : kvmap) l, agree K M M' -> R B M l -> R B M' l).
  Context (Vloc : forall (M M' : kvmap) l, agree K M M' -> V M l -> V M' l).
  Context (RV : forall B (M : kvmap) l, R B M l -> V M l).
  (** The state after one more step. *)
  Definition moves (l l' : S) : Prop := l' = l \/ (exists H c r, spec H l c r l') \/ exists c, mid l c l'.
  Context (top_one : forall l, top [l] l) (top_in : forall H l, top H l -> l ∈ H) (top_push : forall H l l', top H l -> moves l l' -> top (l' :: H) l').
  Context (Smono : forall H H' l c r l', H ⊆ H' -> spec H l c r l' -> spec H' l c r l').

  Implicit Types (l : S) (H : list S) (c : call) (B : N) (p : kprog reply) (M : kvmap) (a b : nat) (lk : gmap N nat) (h : option N)
    (X : list (nat * N)) (P : gmap nat (hphase S)) (A : astate) (md : option nat).

  (** Outside critical sections; at work within one; done with the work and about to release. *)
  Inductive sst := Out | In (l : S) (B : N) (M : kvmap) | Fin (l : S) (B : N) (M : kvmap).
  (** The call [c], which has seen the states [H], continues with [p]. *)
  Fixpoint ss (c : call) (H : list S) (p : kprog reply) (st : sst) {struct p} : Prop :=
    match st with
    | Out =>
      match p with
      | KRet y => forall H' l, H ⊆ H' -> top H' l -> spec H' l c (Ok y) l
      | KFail e => forall H' l, H ⊆ H' -> top H' l -> spec H' l c (Err e) l
      | KVis o k =>
        match o in kop X return (X -> kprog reply) -> Prop with
        | KGet key => fun k => forall H' (M : kvmap) l, H ⊆ H' -> top H' l -> V M l -> ss c H' (k (M !! key)) Out
        | KByHash ph => fun k =>
          if ph_sig ph =? INVALID_SIG then forall H' l, H ⊆ H' -> top H' l -> spec H' l c (Err EPanic) l
          else forall H' (M : kvmap) l ls, H ⊆ H' -> top H' l -> V M l -> byhash_spec cfg M ph ls -> ss c H' (k ls) Out
        | KLock j => fun k => j = i /\ forall H' B (M : kvmap) l, H ⊆ H' -> top H' l -> G M -> R (B + w c) M l ->
            ss c H' (k tt) (In l B M) \/ ss c H' (k tt) (Fin l B M)
        | _ => fun _ => False
        end k
      end
    | In l B M =>
      V M l /\
      match p with
      | KRet _ | KFail _ => False
      | KVis o k =>
        match o in kop X return (X -> kprog reply) -> Prop with
        | KGet key => fun k => ss c H (k (M !! key)) (In l B M) \/ ss c H (k (M !! key)) (Fin l B M)
        | KIns key v mode => fun k =>
          match ins_err cfg key v with
          | Some e => exists l', spec H l c (Err e) l' /\ R B M l'
          | None => ss c H (k (snd (spec_ins M key v mode))) (In l B (fst (spec_ins M key v mode))) \/
                    ss c H (k (snd (spec_ins M key v mode))) (Fin l B (fst (spec_ins M key v mode)))
          end
        | KRem key => fun k => ss c H (k (M !! key)) (In l B (delete key M)) \/ ss c H (k (M !! key)) (Fin l B (delete key M))
        | KByHash ph => fun k =>
          if ph_sig ph =? INVALID_SIG then exists l', spec H l c (Err EPanic) l' /\ R B M l'
          else forall ls, byhash_spec cfg M ph ls -> ss c H (k ls) (In l B M) \/ ss c H (k ls) (Fin l B M)
        | KLock _ | KUnlock _ => fun _ => False
        end k
      end
    | Fin l B M =>
      match p with
      | KRet _ => False
      | KFail e => exists l', spec H l c (Err e) l' /\ R B M l'
      | KVis o k =>
        match o in kop X return (X -> kprog reply) -> Prop with
        | KUnlock j => fun k => j = i /\
          ((exists r l', k tt = klift r /\ spec H l c r l' /\ R B M l') \/
           (exists l', (l' = l \/ mid l c l') /\ R (B + w c) M l' /\ ss c (l' :: H) (k tt) Out))
        | _ => fun _ => False
        end k
      end
    end.
  Definition nxt (c : call) (H : list S) (p : kprog reply) (l : S) (B : N) (M : kvmap) : Prop := ss c H p (In l B M) \/ ss c H p (Fin l B M).

  Lemma sub_cons {T} (x : T) (A A' : list T) : A ⊆ A' -> x :: A ⊆ x :: A'.
  Proof. intros HA y Hy. apply elem_of_cons in Hy as [->|Hy]; apply elem_of_cons; [by left|right; by apply HA]. Qed.
  Lemma sub_tail {T} (x : T) (A : list T) : A ⊆ x :: A.
  Proof. intros y Hy. apply elem_of_cons. by right. Qed.
  Lemma ss_mono c p : forall H H' st, H ⊆ H' -> ss c H p st -> ss c H' p st.
  Proof.
    induction p as [y|e|X o k IH]; intros H H' st Hs; destruct st as [|l B M|l B M]; cbn [ss].
    - intros Hp H2 l H3 Hl. apply Hp; [by etransitivity|done].
    - intros [_ []].
    - done.
    - intros Hp H2 l H3 Hl. apply Hp; [by etransitivity|done].
    - intros [_ []].
    - intros (l' & H1 & H2). exists l'. split; [by eapply Smono|done].
    - destruct o as [key|key v mode|key|ph|j|j]; try done.
      + intros Hp H2 M l H3. apply Hp. by etransitivity.
      + destruct (_ =? _); intros Hp H2; [intros l H3|intros M l ls H3]; apply Hp; by etransitivity.
      + intros [-> Hp]. split; [done|]. intros H2 B M l H3. apply Hp. by etransitivity.
    - intros [HV Hp]. split; [done|]. destruct o as [key|key v mode|key|ph|j|j]; try done.
      + destruct Hp as [Hp|Hp]; [left|right]; by eapply IH.
      + destruct (ins_err cfg key v); [destruct Hp as (l' & H1 & H2); exists l'; split; [by eapply Smono|done]|].
        destruct Hp as [Hp|Hp]; [left|right]; by eapply IH.
      + destruct Hp as [Hp|Hp]; [left|right]; by eapply IH.
      + destruct (_ =? _); [destruct Hp as (l' & H1 & H2); exists l'; split; [by eapply Smono|done]|].
        intros ls Hls. destruct (Hp _ Hls) as [Hq|Hq]; [left|right]; by eapply IH.
    - destruct o as [key|key v mode|key|ph|j|j]; try done. intros [-> Hp]. split; [done|]. destruct Hp as [(r & l' & H1 & H2 & H3)|(l' & H1 & H2 & H3)].
      + left. exists r, l'. split; [done|]. split; [by eapply Smono|done].
      + right. exists l'. split; [done|]. split; [done|]. eapply IH; [|exact H3]. by apply sub_cons.
  Qed.
  Lemma ss_local c H p : klocal K F anyv p -> forall (M M' : kvmap) l B, agree K M M' ->
    (ss c H p (In l B M) -> ss c H p (In l B M')) /\ (ss c H p (Fin l B M) -> ss c H p (Fin l B M')).
  Proof.
    induction p as [y|e|X o k IH]; intros Hl M M' l B Ha; cbn [ss].
    - split; [by intros [_ []]|done].
    - split; [by intros [_ []]|]. intros (l' & H1 & H2). exists l'. split; [done|]. by eapply Rloc.
    - assert (Hnx : forall x (M1 M1' : kvmap), klocal K F anyv (k x) -> agree K M1 M1' ->
        ss c H (k x) (In l B M1) \/ ss c H (k x) (Fin l B M1) -> ss c H (k x) (In l B M1') \/ ss c H (k x) (Fin l B M1')).
      { intros x M1 M1' Hl1 Ha1. destruct (IH x Hl1 M1 M1' l B Ha1) as [I1 I2]. intros [Hq|Hq]; [left; by apply I1|right; by apply I2]. }
      split.
      + intros [HV Hc]. split; [by eapply Vloc|]. destruct o as [key|key v mode|key|ph|j|j]; cbn [klocal] in Hl; try done.
        * destruct Hl as [Hk Hl]. rewrite (Ha _ Hk). by eapply Hnx.
        * destruct Hl as [Hk Hl]. destruct (ins_err cfg key v) as [e|].
          -- destruct Hc as (l' & H1 & H2). exists l'. split; [done|]. by eapply Rloc.
          -- destruct (agree_ins K M M' key v mode Hk Ha) as [E1 E2]. rewrite E1. by eapply Hnx.
        * destruct Hl as [Hk Hl]. rewrite (Ha _ Hk). eapply Hnx; [done| |exact Hc]. by apply agree_delete.
        * destruct Hl as [Hl1 Hl2]. destruct (ph_sig ph =? INVALID_SIG).
          -- destruct Hc as (l' & H1 & H2). exists l'. split; [done|]. by eapply Rloc.
          -- intros ls Hls. destruct (byhash_local cfg K F HF M M' ph ls Ha Hls) as (ls' & H1 & H2).
             rewrite <- (Hl1 _ _ H2). eapply Hnx; [done|exact Ha|]. by apply Hc.
      + destruct o as [key|key v mode|key|ph|j|j]; try done. intros [-> Hp]. split; [done|]. destruct Hp as [(r & l' & H1 & H2 & H3)|(l' & H1 & H2 & H3)].
        * left. exists r, l'. split; [done|]. split; [done|]. by eapply Rloc.
        * right. exists l'. split; [done|]. split; [by eapply Rloc|done].
  Qed.
  (** One step of a critical section. *)
  Lemma ss_step c H l B h a p (M : kvmap) lk (M' : kvmap) lk' p' : ss c H p (In l B M) -> wl h p None -> kop_step cfg a M lk p M' lk' p' ->
    lk' = lk /\ wl h p' None /\ nxt c H p' l B M'.
  Proof.
    destruct p as [y|e|X o k]; cbn [kop_step]; [done|done|]. cbn [ss wl]. intros [_ Hc]. unfold nxt. destruct o as [key|key v mode|key|ph|j|j]; try done.
    - intros Hl (-> & -> & ->). split; [done|]. split; [apply Hl|done].
    - intros Hl (-> & Hs). split; [done|]. destruct (ins_err cfg key v); destruct Hs as [-> ->]; [split; [done|by right]|split; [apply Hl|done]].
    - intros Hl (-> & -> & ->). split; [done|]. split; [apply Hl|done].
    - intros Hl (-> & -> & Hs). split; [done|]. destruct (_ =? _); [rewrite Hs; split; [done|by right]|].
      destruct Hs as (ls & Hls & ->). split; [apply Hl|by apply Hc].
  Qed.

  (** A critical section from a weakest precondition: it takes effect with its last write to the
      keys [IK] on which [V] depends. *)
  Definition ends_ok (c : call) (H : list S) (l : S) (B : N) (q : kprog reply) (M : kvmap) : Prop :=
    (exists r l', q = klift r /\ spec H l c r l' /\ R B M l') \/
    (exists l', (l' = l \/ mid l c l') /\ R (B + w c) M l' /\ ss c (l' :: H) q Out).
  Lemma nxt_kwp {T} (IK : bytes -> Prop) c H l B (f : T -> kprog reply) (C : kvmap -> Prop) (Q : T -> kvmap -> Prop) (E : err -> kvmap -> Prop) :
    (forall x M', Q x M' -> ends_ok c H l B (f x) M') -> (forall e M', E e M' -> exists l', spec H l c (Err e) l' /\ R B M' l') ->
    (forall M M', agree IK M M' -> V M l -> C M' -> V M' l) ->
    forall (q : kprog T) M, pw IK q -> kwp cfg q C Q E M -> V M l ->
      nxt c H (dok x <- q; dok _ <- kop1 (KUnlock i); f x) l B M.
  Proof.
    intros HQ HE HV.
    assert (Hlift : forall (r : res T) M, kwp cfg (klift r) C Q E M -> nxt c H (dok x <- klift r; dok _ <- kop1 (KUnlock i); f x) l B M).
    { intros [x|e] M [_ Hw]; right; [|by apply HE]. cbn [klift kbind kop1 ss]. split; [done|]. by apply HQ. }
    induction q as [x|e|X o k IH]; intros M Hp Hw HVM; [by apply (Hlift (Ok x))|by apply (Hlift (Err e))|].
    left. cbn [kbind]. cbn [ss]. split; [done|]. cbn [kwp] in Hw. destruct Hw as [_ Hw].
    assert (Hins : forall key M' x, ((~ IK key /\ (forall x, pw IK (k x))) \/ (forall x, exists r, k x = klift r)) ->
      (forall k', k' <> key -> @eq (option bytes) (M' !! k') (M !! k')) -> kwp cfg (k x) C Q E M' -> nxt c H (dok x <- k x; dok _ <- kop1 (KUnlock i); f x) l B M').
    { intros key M' x Hk Hm Hw'. destruct Hk as [[H1 H2]|Hk].
      - apply IH; [done|done|]. eapply HV; [|exact HVM|by eapply kwp_C]. intros k' Hk'. apply Hm. intros ->. done.
      - destruct (Hk x) as [r Er]. rewrite Er in *. by apply Hlift. }
    destruct o as [key|key v mode|key|ph|j|j]; try done.
    - apply IH; [apply Hp|done|done].
    - destruct Hw as [_ Hw]. destruct (ins_err cfg key v); [by apply HE|]. eapply Hins; [exact Hp| |exact Hw].
      intros k' Hk'. unfold spec_ins. destruct (M !! key), mode as [|[]|]; cbn [fst]; try case_bool_decide; cbn [fst]; try done; by apply lookup_insert_ne.
    - eapply Hins; [exact Hp| |exact Hw]. intros k' Hk'. by apply lookup_delete_ne.
    - destruct (ph_sig ph =? INVALID_SIG); [by apply HE|]. intros ls Hls. apply IH; [apply Hp|by apply Hw|done].
  Qed.
  Lemma ss_ext c p : forall H q st, keq p q -> ss c H p st -> ss c H q st.
  Proof.
    induction p as [y|e|X o k IH]; intros H q st; cbn [keq]; [by intros ->|by intros ->|]. intros (k' & -> & Hk).
    assert (Hr : forall x r, k x = klift r -> k' x = klift r).
    { intros x r Er. specialize (Hk x). rewrite Er in Hk. by destruct r. }
    destruct st as [|l B M|l B M]; cbn [ss].
    - destruct o as [key|key v mode|key|ph|j|j]; try done.
      + intros Hp H2 M l H3 H4 H5. eapply IH; [apply Hk|by eapply Hp].
      + destruct (_ =? _); [done|]. intros Hp H2 M l ls H3 H4 H5 H6. eapply IH; [apply Hk|by eapply Hp].
      + intros [-> Hp]. split; [done|]. intros H2 B M l H3 H4 H5 H6. destruct (Hp H2 B M l H3 H4 H5 H6) as [Hq|Hq]; [left|right]; (eapply IH; [apply Hk|exact Hq]).
    - intros [HV Hp]. split; [done|]. destruct o as [key|key v mode|key|ph|j|j]; try done.
      + destruct Hp as [Hq|Hq]; [left|right]; (eapply IH; [apply Hk|exact Hq]).
      + destruct (ins_err cfg key v); [done|]. destruct Hp as [Hq|Hq]; [left|right]; (eapply IH; [apply Hk|exact Hq]).
      + destruct Hp as [Hq|Hq]; [left|right]; (eapply IH; [apply Hk|exact Hq]).
      + destruct (_ =? _); [done|]. intros ls Hls. destruct (Hp ls Hls) as [Hq|Hq]; [left|right]; (eapply IH; [apply Hk|exact Hq]).
    - destruct o as [key|key v mode|key|ph|j|j]; try done. intros [-> Hp]. split; [done|]. destruct Hp as [(r & l' & H1 & H2 & H3)|(l' & H1 & H2 & H3)].
      + left. exists r, l'. split; [by apply Hr|done].
      + right. exists l'. split; [done|]. split; [done|]. eapply IH; [apply Hk|exact H3].
  Qed.
  Lemma ss_section {T} (IK : bytes -> Prop) c H (ph : phash) (q : kprog T) (f : T -> kprog reply)
    (C : S -> kvmap -> Prop) (Q : N -> S -> T -> kvmap -> Prop) :
    lock_idx cfg ph = i -> pw IK q ->
    (forall l M M', agree IK M M' -> V M l -> C l M' -> V M' l) ->
    (forall H' B l x M', H ⊆ H' -> top H' l -> Q B l x M' -> ends_ok c H' l B (f x) M') ->
    (forall B M l, G M -> R (B + w c) M l -> kwp cfg q (C l) (Q B l) (fun _ _ => False) M) ->
    ss c H (kbind (klocked cfg ph q) f) Out.
  Proof.
    intros Ei Hp HV HQ Hw.
    apply (ss_ext c (KVis (KLock i) (fun _ => kbind q (fun x => kbind (kop1 (KUnlock i)) (fun _ => f x))))).
    - unfold klocked. rewrite Ei. cbn [kbind kop1 keq]. eexists. split; [reflexivity|]. intros ?. apply keq_sym.
      eapply keq_trans; [apply keq_assoc|]. apply keq_refl.
    - cbn [ss]. split; [done|]. intros H' B M l Hs Hl HG HR.
      exact (nxt_kwp IK c H' l B f (C l) (Q B l) (fun _ _ => False) (fun x M' => HQ H' B l x M' Hs Hl) ltac:(done) (HV l) q M Hp (Hw B M l HG HR) (RV _ _ _ HR)).
  Qed.

  (** A call that only reads, once. *)
  Definition rdr (c : call) (p : kprog reply) : Prop :=
    (forall y, p <> KRet y) /\ (forall e, p <> KFail e) /\
    forall a (M : kvmap) lk (M' : kvmap) lk' p' l, V M l -> kop_step cfg a M lk p M' lk' p' ->
      M' = M /\ exists r, p' = done_prog r /\ forall H, top H l -> spec H l c r l.
  (** A call that has nothing to do with the collection. *)
  Definition oth (c : call) (p : kprog reply) : Prop :=
    (exists Kf : bytes -> Prop, kwrites Kf anyv p /\ forall k, K k -> ~ Kf k) /\ forall H l r, spec H l c r l.
  (** A call on the collection. *)
  Definition mine (c : call) (p : kprog reply) : Prop := klocal K F anyv p /\ forall l, ss c [l] p Out.

  Context (Hcalls : forall c, Gc c -> mine c (call_prog cfg c) \/ rdr c (call_prog cfg c) \/ oth c (call_prog cfg c)).

  Definition tms (lk : gmap N nat) (md : option nat) (X : list (nat * N)) (l : S) (a : nat) (ph : option (hphase S)) (p : option (kprog reply)) : Prop :=
    match ph, p with
    | None, None => True
    | Some (HCalled c H), Some p =>
      top H l /\ exists h, holding lk a p h /\
        ((md = Some a /\ h = Some i /\ (a, w c) ∈ X) \/
         (md <> Some a /\ ((klocal K F anyv p /\ (a, w c) ∈ X /\ (ss c H p Out \/ exists k, p = KVis (KUnlock i) k /\ ss c H (k tt) Out)) \/ rdr c p \/ oth c p)))
    | Some (HDone r), Some p => md <> Some a /\ exists h, holding lk a p h /\ (p = done_prog r \/ unlocking i r p)
    | _, _ => False
    end.
  Definition modes (l : S) (P : gmap nat (hphase S)) (A : astate) (B : N) (md : option nat) : Prop :=
    match md with
    | None => R B (a_map A) l
    | Some a => exists c H p B', a_ths A !! a = Some p /\ P !! a = Some (HCalled c H) /\ B = B' + w c /\ ss c H p (In l B' (a_map A)) /\ klocal K F anyv p
    end.
  Lemma modes_V l P A B md : modes l P A B md -> V (a_map A) l.
  Proof.
    destruct md as [a|]; cbn [modes]; [|apply RV]. intros (c & H & p & B' & _ & _ & _ & Hc & _). destruct p; apply Hc.
  Qed.
  (** Another thread's entry after a step of [a]. *)
  Lemma tms_other lk lk' md md' X X' l l' a b (ph ph' : option (hphase S)) (p : option (kprog reply)) : b <> a ->
    (forall j, lk !! j = Some b -> lk' !! j = Some b) ->
    (md' = Some b <-> md = Some b) -> (forall n, (b, n) ∈ X -> (b, n) ∈ X') ->
    (ph' = ph /\ l' = l) \/ (moves l l' /\ ph' = saw l' <$> ph) ->
    tms lk md X l b ph p -> tms lk' md' X' l' b ph' p.
  Proof.
    intros Hne Hlk Hmd HX Hph. assert (Hh : forall q h, holding lk b q h -> holding lk' b q h) by (intros q h [H1 H2]; split; [done|]; auto).
    assert (Hmain : forall c H H' q, (H' = H /\ l' = l) \/ (moves l l' /\ H' = l' :: H) -> tms lk md X l b (Some (HCalled c H)) (Some q) -> tms lk' md' X' l' b (Some (HCalled c H')) (Some q)).
    { intros c H H' q HH. cbn [tms]. intros (Hl & h & H1 & H2). assert (H ⊆ H') as Hsub by (destruct HH as [[-> _]|[_ ->]]; [done|apply sub_tail]).
      split; [destruct HH as [[-> ->]|[Hmv ->]]; [done|by eapply top_push]|]. exists h. split; [by apply Hh|]. destruct H2 as [(H2 & H3 & H4)|(H2 & H3)].
      - left. split; [by apply Hmd|]. auto.
      - right. split; [by rewrite Hmd|]. destruct H3 as [(H3 & H4 & H5)|H3]; [left|by right]. split; [done|]. split; [by apply HX|].
        destruct H5 as [H5|(k & -> & H5)]; [left; by eapply ss_mono|right; exists k; split; [done|by eapply ss_mono]]. }
    destruct ph as [[c H|r]|], p as [p|]; cbn [fmap option_fmap option_map saw] in Hph; try (destruct Hph as [[-> _]|[_ ->]]; done).
    - intros Ht. destruct Hph as [[-> ->]|[Hmv ->]]; (eapply Hmain; [|exact Ht]); [by left|by right].
    - assert (ph' = Some (HDone r)) as -> by (destruct Hph as [[-> _]|[_ ->]]; done). cbn [tms]. intros (H0 & h & H1 & H2). split; [by rewrite Hmd|]. exists h. auto.
  Qed.

  Lemma modes_stay l P P1 M M1 (T T1 : gmap nat (kprog reply)) lk lk1 B md a : modes l P (AS M T lk) B md -> md <> Some a -> agree K M M1 ->
    (forall b, b <> a -> P1 !! b = P !! b \/ P1 !! b = saw l <$> P !! b) -> (forall b, b <> a -> T1 !! b = T !! b) -> modes l P1 (AS M1 T1 lk1) B md.
  Proof.
    intros Hmd Hnm Hag HP HT. destruct md as [b|]; cbn [modes a_map a_ths] in *; [|by eapply Rloc].
    destruct Hmd as (c' & H & q & B' & E1 & E2 & E3 & Hcs & Hloc). assert (b <> a) as Hb by congruence.
    assert (exists H', P1 !! b = Some (HCalled c' H') /\ H ⊆ H') as (H' & E4 & Hsub).
    { destruct (HP b Hb) as [->| ->]; rewrite E2; cbn [fmap option_fmap option_map saw]; [by exists H|]. exists (l :: H). split; [done|apply sub_tail]. }
    exists c', H', q, B'. rewrite HT by done. split; [done|]. split; [done|]. split; [done|]. split; [|done]. eapply ss_mono; [exact Hsub|].
    by apply (ss_local c' H q Hloc M M1 l B' Hag).
  Qed.
  Lemma lin_sess (A : astate) (es : list cevent) (A' : astate) : arun cfg A es A' -> forall (l : S) (P : gmap nat (hphase S)) B md X,
    (forall a c, EvCall a c ∈ es -> Gc c) -> G (a_map A) ->
    modes l P A B md -> (forall a, tms (a_lk A) md X l a (P !! a) (a_ths A !! a)) -> total X + weight w es <= B ->
    exists l' P' B' md' X', hrun spec mid l P es l' P' /\ G (a_map A') /\ modes l' P' A' B' md' /\
      (forall a, tms (a_lk A') md' X' l' a (P' !! a) (a_ths A' !! a)) /\ total X' <= B'.
  Proof.
    induction 1 as [s|s e s1 es s' Hs Hr IH]; intros l P B md X HG HGM Hmd Htm HB.
    { exists l, P, B, md, X. cbn [weight] in HB. split; [apply hr_nil|]. split; [done|]. split; [done|]. split; [done|lia]. }
    assert (HG' : forall a c, EvCall a c ∈ es -> Gc c) by (intros b c Hin; apply (HG b); apply elem_of_app; by right).
    pose proof (modes_V _ _ _ _ _ Hmd) as HV.
    destruct Hs as [M T lk a c Ha|M T lk a p M' lk' p' Ha Hk|M T lk a y Ha|M T lk a er Ha]; cbn [a_map a_ths a_lk option_list app] in *.
    - (* a call *)
      pose proof (Htm a) as Hpa. rewrite Ha in Hpa. destruct (P !! a) as [[]|] eqn:Epa; try done.
      assert (md <> Some a) as Hnm.
      { intros ->. destruct Hmd as (c' & H & p & B' & E & _). cbn [a_ths] in E. congruence. }
      change (total X + (w c + weight w es) <= B) in HB.
      destruct (IH l (<[a := HCalled c [l]]> P) B md ((a, w c) :: X) HG' HGM) as (l' & P' & B' & md' & X' & L1 & L2); cbn [a_map a_ths a_lk].
      + eapply (modes_stay l P); [exact Hmd|exact Hnm|done| |]; intros b Hb; [left|]; by rewrite lookup_insert_ne.
      + intros b. destruct (decide (b = a)) as [->|Hne].
        * rewrite !lookup_insert. cbn [tms]. split; [apply top_one|]. exists None. split; [split; [apply call_wl|done]|]. right. split; [done|].
          assert (Gc c) as Hc by (apply (HG a), elem_of_cons; by left).
          destruct (Hcalls c Hc) as [[H1 H2]|H]; [left|by right]. split; [done|]. split; [apply elem_of_cons; by left|]. left. apply H2.
        * rewrite !lookup_insert_ne by done. eapply (tms_other lk lk md md X _ l l a b); [done|done|done| |by left|apply Htm].
          intros n Hn. apply elem_of_cons. by right.
      + cbn [total]. lia.
      + exists l', P', B', md', X'. split; [by eapply hr_call|done].
    - (* a raw operation *)
      change (total X + weight w es <= B) in HB.
      pose proof (Gok _ _ _ _ _ _ _ Hk HGM) as HGM'.
      pose proof (Htm a) as Hpa. rewrite Ha in Hpa.
      assert (exists h, holding lk a p h) as (h0 & Hw0 & Hh0).
      { destruct (P !! a) as [[c H|r]|]; cbn [tms] in Hpa; try done; [by destruct Hpa as (_ & h & ? & _); exists h|by destruct Hpa as (_ & h & ? & _); exists h]. }
      assert (Hlk : forall b j, b <> a -> lk !! j = Some b -> lk' !! j = Some b).
      { by destruct (wl_step cfg _ _ _ _ _ _ _ _ Hw0 Hh0 Hk) as (h' & _ & _ & Hlk). }
      clear h0 Hw0 Hh0.
      (* how the induction goes on *)
      assert (Hcont : forall l1 P1 B1 md1 X1, (forall l2 P2, hrun spec mid l1 P1 es l2 P2 -> hrun spec mid l P es l2 P2) ->
        modes l1 P1 (AS M' (<[a := p']> T) lk') B1 md1 -> tms lk' md1 X1 l1 a (P1 !! a) (Some p') ->
        (forall b, b <> a -> md1 = Some b <-> md = Some b) -> (forall b n, b <> a -> (b, n) ∈ X -> (b, n) ∈ X1) ->
        (forall b, b <> a -> (P1 !! b = P !! b /\ l1 = l) \/ (moves l l1 /\ P1 !! b = saw l1 <$> P !! b)) -> total X1 + weight w es <= B1 ->
        exists l' P' B' md' X', hrun spec mid l P es l' P' /\ G (a_map s') /\ modes l' P' s' B' md' /\
            (forall b, tms (a_lk s') md' X' l' b (P' !! b) (a_ths s' !! b)) /\ total X' <= B').
      { intros l1 P1 B1 md1 X1 Hrun Hm1 Hta Hmd1 HX1 HP1 HB1.
        destruct (IH l1 P1 B1 md1 X1 HG') as (l2 & P2 & B2 & md2 & X2 & L1 & L2); cbn [a_map a_ths a_lk].
        - done.
        - exact Hm1.
        - intros b. destruct (decide (b = a)) as [->|Hne]; [by rewrite lookup_insert|]. rewrite lookup_insert_ne by done.
          eapply (tms_other lk lk' md md1 X X1 l l1 a b); [done|by intros j; apply Hlk|by apply Hmd1|by intros n; apply HX1| |apply Htm].
          by apply HP1.
        - done.
        - exists l2, P2, B2, md2, X2. split; [by apply Hrun|done]. }
      destruct (P !! a) as [[c H|r]|] eqn:Epa; try done; cbn [tms] in Hpa.
      + destruct Hpa as (Hl & h & [Hw Hh] & Hpa).
        (* the call takes effect now *)
        assert (Heff : forall h' B' r l' X' md1, holding lk' a p' h' -> total X' + weight w es <= B' -> (forall b n, b <> a -> (b, n) ∈ X -> (b, n) ∈ X') ->
          spec H l c r l' -> md1 <> Some a -> (forall b, b <> a -> md1 = Some b <-> md = Some b) ->
          modes l' (saw l' <$> <[a := HDone r]> P) (AS M' (<[a := p']> T) lk') B' md1 ->
          (p' = done_prog r \/ unlocking i r p') ->
          exists l' P' B' md' X', hrun spec mid l P es l' P' /\ G (a_map s') /\ modes l' P' s' B' md' /\
            (forall b, tms (a_lk s') md' X' l' b (P' !! b) (a_ths s' !! b)) /\ total X' <= B').
        { intros h' B' r l' X' md1 Hw' HB' HX Hsp Hnm1 Hmd1 HR Hp. apply (Hcont l' (saw l' <$> <[a := HDone r]> P) B' md1 X'); [|exact HR| |done|done| |done].
          - intros l2 P2 L. by eapply hr_effect.
          - rewrite lookup_fmap, lookup_insert. cbn [fmap option_fmap option_map saw tms]. split; [done|]. exists h'. by split.
          - intros b Hb. right. split; [right; left; by exists H, c, r|]. by rewrite lookup_fmap, lookup_insert_ne. }
        (* the critical section goes on, or ends *)
        assert (Hnx : forall B', B = B' + w c -> (a, w c) ∈ X -> nxt c H p' l B' M' -> klocal K F anyv p' -> holding lk' a p' (Some i) -> (forall b, md = Some b -> b = a) ->
          exists l' P' B' md' X', hrun spec mid l P es l' P' /\ G (a_map s') /\ modes l' P' s' B' md' /\
            (forall b, tms (a_lk s') md' X' l' b (P' !! b) (a_ths s' !! b)) /\ total X' <= B').
        { intros B' HBe HX Hn Hloc Hhi Hmd0.
          assert (Hmdn : forall b, b <> a -> None = Some b <-> md = Some b) by (intros b Hb; split; [done|]; intros E; by destruct Hb; apply Hmd0).
          assert (Heff' : forall r l', spec H l c r l' -> R B' M' l' -> (p' = done_prog r \/ unlocking i r p') ->
            exists l' P' B' md' X', hrun spec mid l P es l' P' /\ G (a_map s') /\ modes l' P' s' B' md' /\
              (forall b, tms (a_lk s') md' X' l' b (P' !! b) (a_ths s' !! b)) /\ total X' <= B').
          { intros r l' H1 H2 H3. apply elem_of_Permutation in HX as [X' HX]. apply (Heff (Some i) B' r l' X' None); [done| | |done|done|done|done|done].
            - rewrite (total_perms _ _ HX) in HB. cbn [total] in HB. lia.
            - intros b n Hb Hn'. rewrite HX in Hn'. apply elem_of_cons in Hn' as [Hn'|Hn']; [congruence|done]. }
          destruct Hn as [Hn|Hn].
          - apply (Hcont l P B (Some a) X); [done| | | |done|by left|done].
            + exists c, H, p', B'. cbn [a_map a_ths]. by rewrite lookup_insert.
            + rewrite Epa. cbn [tms]. split; [done|]. exists (Some i). split; [done|]. by left.
            + intros b Hb. split; [congruence|]. intros E. by destruct Hb; apply Hmd0.
          - destruct p' as [y|e|Y o k]; cbn [ss] in Hn; [done| |].
            + destruct Hn as (l' & H1 & H2). apply (Heff' (Err e) l'); [done|done|by left].
            + destruct o; try done. destruct Hn as (-> & [(r & l' & H1 & H2 & H3)|(l' & H1 & H2 & H3)]).
              * apply (Heff' r l'); [done|done|]. right. by exists k.
              * rewrite <- HBe in H2. destruct H1 as [->|Hmid].
                -- apply (Hcont l P B None X); [done|exact H2| |done|done|by left|done].
                   rewrite Epa. cbn [tms]. split; [done|]. exists (Some i). split; [done|]. right. split; [done|]. left. split; [done|]. split; [done|].
                   right. exists k. split; [done|]. eapply ss_mono; [|exact H3]. intros x Hx. apply elem_of_cons in Hx as [->|Hx]; [by apply top_in|done].
                -- apply (Hcont l' (saw l' <$> P) B None X); [|exact H2| |done|done| |done].
                   ++ intros l2 P2 L. by eapply hr_mid.
                   ++ rewrite lookup_fmap, Epa. cbn [fmap option_fmap option_map saw tms]. split; [eapply top_push; [exact Hl|right; right; by exists c]|]. exists (Some i). split; [done|]. right. split; [done|].
                      left. split; [done|]. split; [done|]. right. by exists k.
                   ++ intros b Hb. right. split; [right; right; by exists c|]. by rewrite lookup_fmap. }
        destruct Hpa as [(-> & -> & HX)|(Hnm & Hpa)].
        { (* in the critical section *)
          destruct Hmd as (c' & H0 & q & B' & E1 & E2 & E3 & Hcs & Hloc). cbn [a_map a_ths] in *.
          assert (q = p) as -> by congruence. assert (c' = c) as -> by congruence. assert (H0 = H) as -> by congruence.
          destruct (ss_step _ _ _ _ _ _ _ _ _ _ _ _ Hcs Hw Hk) as (-> & Hw' & Hn).
          apply (Hnx B'); [done|done|done|by eapply klocal_step|done|congruence]. }
        destruct (wl_step cfg _ _ _ _ _ _ _ _ Hw Hh Hk) as (h' & Hw' & Hh' & _).
        destruct Hpa as [(Hloc & HX & Hst)|[(_ & _ & Hpa)|[(Kf & HK1 & HK2) Hf]]].
        * (* a call on the collection, outside critical sections *)
          pose proof (klocal_step cfg K F _ _ _ _ _ _ _ Hloc Hk) as Hloc'.
          assert (Hout : M' = M -> ss c H p' Out ->
            exists l' P' B' md' X', hrun spec mid l P es l' P' /\ G (a_map s') /\ modes l' P' s' B' md' /\
            (forall b, tms (a_lk s') md' X' l' b (P' !! b) (a_ths s' !! b)) /\ total X' <= B').
          { intros -> Ho. apply (Hcont l P B md X); [done| | |done|done|by left|done].
            - eapply (modes_stay l P); [exact Hmd|exact Hnm|done|by left|]. intros b Hb. by rewrite lookup_insert_ne.
            - rewrite Epa. cbn [tms]. split; [done|]. exists h'. split; [done|]. right. split; [done|]. left. split; [done|]. split; [done|]. by left. }
          destruct Hst as [Hst|(k & -> & Hst)]; [|cbn [kop_step] in Hk; destruct Hk as (E & _ & ->); by apply Hout].
          destruct p as [y|e|Y o k]; cbn [kop_step] in Hk; [done|done|]. destruct o as [key|key v mode|key|ph|j|j]; cbn [ss] in Hst; try done.
          -- destruct Hk as (E & _ & ->). apply Hout; [done|]. by eapply Hst.
          -- destruct Hk as (E & _ & Hk). destruct (ph_sig ph =? INVALID_SIG).
             ++ apply Hout; [done|]. rewrite Hk. exact Hst.
             ++ destruct Hk as (ls & Hls & ->). apply Hout; [done|]. by eapply Hst.
          -- (* takes the lock *)
             destruct Hst as [-> Hst]. destruct Hk as (-> & Hn & -> & ->).
             destruct md as [b|].
             { exfalso. destruct Hmd as (c' & H0 & q & B' & E1 & E2 & _). cbn [a_map a_ths] in *. pose proof (Htm b) as Hb. rewrite E1, E2 in Hb. cbn [tms] in Hb.
               destruct Hb as (_ & hb & [_ Hb1] & [(_ & -> & _)|(Hb2 & _)]); [|done]. specialize (Hb1 _ eq_refl). congruence. }
             pose proof HX as HX'. apply elem_of_Permutation in HX' as [X' HX']. rewrite (total_perms _ _ HX') in HB. cbn [total] in HB.
             apply (Hnx (B - w c)); [lia|done| |done| |done].
             ++ apply Hst; [done|done|done|]. replace (B - w c + w c) with B by lia. exact Hmd.
             ++ cbn [wl] in Hw. destruct Hw as [_ Hw]. split; [done|]. intros j [= <-]. by rewrite lookup_insert.
        * (* reads *)
          destruct (Hpa _ _ _ _ _ _ _ HV Hk) as (-> & r & -> & Hsp).
          apply (Heff h' B r l X md); [done|lia|auto|by apply Hsp|done|done| |by left].
          eapply (modes_stay l P); [exact Hmd|exact Hnm|done| |]; intros b Hb; [right|by rewrite lookup_insert_ne].
          by rewrite lookup_fmap, lookup_insert_ne.
        * (* has nothing to do with the collection *)
          destruct (kop_step_writes _ _ _ _ _ _ _ _ _ HK1 Hk) as [W1 W2].
          apply (Hcont l P B md X); [done| | |done|done|by left|done].
          -- eapply (modes_stay l P); [exact Hmd|exact Hnm| |by left|]; [|intros b Hb; by rewrite lookup_insert_ne]. intros k Hk1. apply W1. by apply HK2.
          -- rewrite Epa. cbn [tms]. split; [done|]. exists h'. split; [done|]. right. split; [done|]. right. right. split; [|done]. by exists Kf.
      + (* releases the lock *)
        destruct Hpa as (Hnm & h & [Hw Hh] & [->|(k & -> & Ek)]); [by destruct r|].
        destruct (wl_step cfg _ _ _ _ _ _ _ _ Hw Hh Hk) as (h' & Hw' & Hh' & _).
        cbn [kop_step] in Hk. destruct Hk as (-> & -> & ->).
        apply (Hcont l P B md X); [done| | |done|done|by left|done].
        * eapply (modes_stay l P); [exact Hmd|exact Hnm|done|by left|]. intros b Hb. by rewrite lookup_insert_ne.
        * rewrite Epa. cbn [tms]. split; [done|]. exists h'. split; [done|]. by left.
    - (* a return *)
      change (total X + weight w es <= B) in HB. pose proof (Htm a) as Hpa. rewrite Ha in Hpa.
      assert (Hfin : forall P1, P1 !! a = None -> (forall b, b <> a -> P1 !! b = P !! b \/ P1 !! b = saw l <$> P !! b) -> md <> Some a ->
        exists l' P' B' md' X', hrun spec mid l P1 es l' P' /\ G (a_map s') /\ modes l' P' s' B' md' /\
            (forall b, tms (a_lk s') md' X' l' b (P' !! b) (a_ths s' !! b)) /\ total X' <= B').
      { intros P1 HPa HPb Hnm. apply (IH l P1 B md X HG' HGM); cbn [a_map a_ths a_lk]; [| |done].
        - eapply (modes_stay l P); [exact Hmd|exact Hnm|done|exact HPb|]. intros b Hb. by rewrite lookup_delete_ne.
        - intros b. destruct (decide (b = a)) as [->|Hne]; [by rewrite HPa, lookup_delete|]. rewrite lookup_delete_ne by done.
          eapply (tms_other lk lk md md X X l l a b); [done|done|done|done| |apply Htm]. destruct (HPb b Hne) as [E|E]; [by left|right]. split; [by left|done]. }
      destruct (P !! a) as [[c H|r]|] eqn:Epa; try done; cbn [tms] in Hpa.
      + destruct Hpa as (Hl & h & _ & [(-> & _)|(Hnm & Hpa)]).
        { exfalso. destruct Hmd as (c' & H0 & q & B' & E1 & E2 & E3 & Hcs & _). cbn [a_map a_ths] in *. assert (q = KRet y) as -> by congruence. by destruct Hcs. }
        assert (spec H l c (Ok y) l) as Hsp.
        { destruct Hpa as [(_ & _ & [Hst|(k & Hk & _)])|[(Hpa & _)|[_ Hf]]]; [by apply Hst|done|by destruct (Hpa y)|apply Hf]. }
        destruct (Hfin (delete a (saw l <$> <[a := HDone (Ok y)]> P))) as (l2 & P2 & B2 & md2 & X2 & L1 & L2); [by rewrite lookup_delete| |done|].
        { intros b Hb. right. by rewrite lookup_delete_ne, lookup_fmap, lookup_insert_ne. }
        exists l2, P2, B2, md2, X2. split; [|done].
        eapply hr_effect; [exact Epa|exact Hsp|]. apply hr_ret; [|done]. by rewrite lookup_fmap, lookup_insert.
      + destruct Hpa as (Hnm & h & _ & [Hp|(k & Hp & _)]); [|done]. destruct r as [y'|]; [|done]. injection Hp as ->.
        destruct (Hfin (delete a P)) as (l2 & P2 & B2 & md2 & X2 & L1 & L2); [by rewrite lookup_delete| |done|].
        { intros b Hb. left. by rewrite lookup_delete_ne. }
        exists l2, P2, B2, md2, X2. split; [|done]. by apply hr_ret.
    - (* a failure *)
      change (total X + weight w es <= B) in HB. pose proof (Htm a) as Hpa. rewrite Ha in Hpa.
      assert (Hfin : forall P1, P1 !! a = None -> (forall b, b <> a -> P1 !! b = P !! b \/ P1 !! b = saw l <$> P !! b) -> md <> Some a ->
        exists l' P' B' md' X', hrun spec mid l P1 es l' P' /\ G (a_map s') /\ modes l' P' s' B' md' /\
            (forall b, tms (a_lk s') md' X' l' b (P' !! b) (a_ths s' !! b)) /\ total X' <= B').
      { intros P1 HPa HPb Hnm. apply (IH l P1 B md X HG' HGM); cbn [a_map a_ths a_lk]; [| |done].
        - eapply (modes_stay l P); [exact Hmd|exact Hnm|done|exact HPb|]. intros b Hb. by rewrite lookup_delete_ne.
        - intros b. destruct (decide (b = a)) as [->|Hne]; [by rewrite HPa, lookup_delete|]. rewrite lookup_delete_ne by done.
          eapply (tms_other lk _ md md X X l l a b); [done| |done|done| |apply Htm]; [intros j; by apply unlock_other|]. destruct (HPb b Hne) as [E|E]; [by left|right]. split; [by left|done]. }
      destruct (P !! a) as [[c H|r]|] eqn:Epa; try done; cbn [tms] in Hpa.
      + destruct Hpa as (Hl & h & _ & [(-> & _)|(Hnm & Hpa)]).
        { exfalso. destruct Hmd as (c' & H0 & q & B' & E1 & E2 & E3 & Hcs & _). cbn [a_map a_ths] in *. assert (q = KFail er) as -> by congruence. by destruct Hcs. }
        assert (spec H l c (Err er) l) as Hsp.
        { destruct Hpa as [(_ & _ & [Hst|(k & Hk & _)])|[(_ & Hpa & _)|[_ Hf]]]; [by apply Hst|done|by destruct (Hpa er)|apply Hf]. }
        destruct (Hfin (delete a (saw l <$> <[a := HDone (Err er)]> P))) as (l2 & P2 & B2 & md2 & X2 & L1 & L2); [by rewrite lookup_delete| |done|].
        { intros b Hb. right. by rewrite lookup_delete_ne, lookup_fmap, lookup_insert_ne. }
        exists l2, P2, B2, md2, X2. split; [|done].
        eapply hr_effect; [exact Epa|exact Hsp|]. apply hr_ret; [|done]. by rewrite lookup_fmap, lookup_insert.
      + destruct Hpa as (Hnm & h & _ & [Hp|(k & Hp & _)]); [|done]. destruct r as [|er']; [done|]. injection Hp as ->.
        destruct (Hfin (delete a P)) as (l2 & P2 & B2 & md2 & X2 & L1 & L2); [by rewrite lookup_delete| |done|].
        { intros b Hb. left. by rewrite lookup_delete_ne. }
        exists l2, P2, B2, md2, X2. split; [|done]. by apply hr_ret.
  Qed.
End sess.

(** Nothing known about the order of the states. *)
Definition top_any {S : Type} (H : list S) (l : S) : Prop := l ∈ H.
Lemma top_any_one {S : Type} (l : S) : top_any [l] l.
Proof. by apply elem_of_list_singleton. Qed.
Lemma top_any_in {S : Type} (H : list S) (l : S) : top_any H l -> l ∈ H.
Proof. done. Qed.
Lemma top_any_push {S : Type} (P : S -> S -> Prop) (H : list S) (l l' : S) : top_any H l -> P l l' -> top_any (l' :: H) l'.
Proof. intros _ _. apply elem_of_cons. by left. Qed.
