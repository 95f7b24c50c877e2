(* The command language: the tokens of a text, and which lists of tokens are which command.
   A keyword is told by its number only, and a character of punctuation has its code as number: see
   the counterexamples. *)
From Coq Require Import NArith ZArith Arith String List Bool.
Import ListNotations.
From Verif Require Import Model.Base Model.Uuid Model.Source Model.Catalog Model.Show Model.Lex Model.Parse Spec.Units.
Local Open Scope N_scope.

(* ---- tokens ---- *)
(* the words that are not names *)
Definition words : list (string * N) :=
  [ ("true", KTRUE); ("false", KFALSE);
    ("us", KUSEC); ("microsecond", KUSEC); ("microseconds", KUSEC);
    ("ms", KMSEC); ("millisecond", KMSEC); ("milliseconds", KMSEC);
    ("sec", KSEC); ("second", KSEC); ("seconds", KSEC);
    ("mi", KMIN); ("minute", KMIN); ("minutes", KMIN);
    ("hr", KHOUR); ("hour", KHOUR); ("hours", KHOUR);
    ("day", KDAY); ("days", KDAY); ("week", KWEEK); ("weeks", KWEEK);
    ("month", KMONTH); ("months", KMONTH); ("year", KYEAR); ("years", KYEAR);
    ("kb", KKB); ("kib", KKIB); ("k", KKIB); ("mb", KMB); ("mib", KMIB); ("m", KMIB);
    ("gb", KGB); ("gib", KGIB); ("g", KGIB); ("tb", KTB); ("tib", KTIB); ("t", KTIB);
    ("set", KSET); ("reset", KRESET); ("to", KTO); ("show", KSHOW); ("all", KALL); ("config", KCONFIG);
    ("checkpoint", KCHECKPOINT); ("service", KSERVICE); ("create", KCREATE); ("storage", KSTORAGE);
    ("storages", KSTORAGES); ("partition", KPARTITION); ("partitions", KPARTITIONS); ("if", KIF); ("not", KNOT);
    ("exists", KEXISTS); ("drop", KDROP); ("pipeline", KPIPELINE); ("alter", KALTER); ("rename", KRENAME);
    ("move", KMOVE); ("between", KBETWEEN); ("and", KAND); ("into", KINTO); ("refresh", KREFRESH);
    ("rebalance", KREBALANCE); ("on", KON); ("cloud", KCLOUD); ("clouds", KCLOUDS); ("download", KDOWNLOAD);
    ("upload", KUPLOAD); ("verbose", KVERBOSE); ("debug", KDEBUG); ("wal", KWAL); ("memory", KMEMORY) ]%string.
(* the number of a word; letters of either case *)
Definition keyword (w : list byte) (id : N) : Prop :=
  (exists u, In (u, id) words /\ map lower w = chars u) \/
  (id = KNAME /\ forall u i, In (u, i) words -> map lower w <> chars u).

Definition letter (b : byte) : Prop := 65 <= b <= 90 \/ 97 <= b <= 122.
Definition symbol (b : byte) : Prop := 33 <= b <= 126 /\ ~ word_char b \/ b = 46 \/ b = 36.
(* inside quotes: the character of the quotes and the backslash come after a backslash *)
Inductive quoted (q : byte) : list byte -> Prop :=
| q_end : quoted q []
| q_char b s : b <> q -> b <> 10 -> b <> 92 -> quoted q s -> quoted q (b :: s)
| q_escape b s : b <> 10 -> quoted q s -> quoted q (92 :: b :: s).

Section TOKENS.
Variable strtod : list byte -> option (N * nat).

(* a token at the start of a text, and what follows *)
Inductive token_at : list byte -> token -> list byte -> Prop :=
| ta_symbol b r : symbol b -> b <> 34 -> b <> 39 -> b <> 35 -> token_at (b :: r) (mk_tok b (TInt 0)) r
| ta_word b w r id : letter b \/ b = 95 -> Forall word_char w -> word_ends r -> keyword (b :: w) id ->
    token_at (b :: w ++ r) (mk_tok id (TStr (b :: w) false)) r
| ta_int ds r : ds <> [] -> Forall digit ds ->
    match r with [] => True | b :: _ => ~ digit b /\ b <> 46 /\ b <> 101 /\ b <> 69 end ->
    token_at (ds ++ r) (mk_tok KINT (TInt (number ds mod 2 ^ 64))) r
| ta_real ds b r v n : ds <> [] -> Forall digit ds -> b = 46 \/ b = 101 \/ b = 69 ->
    strtod (ds ++ b :: r) = Some (v, n) ->
    token_at (ds ++ b :: r) (mk_tok KREAL (TReal v)) (skipn n (ds ++ b :: r))
| ta_string q s r e : q = 34 \/ q = 39 -> quoted q s -> e = existsb (N.eqb 92) s ->
    token_at (q :: s ++ q :: r) (mk_tok KSTRING (TStr s e)) r.

(* blanks, and comments from # to the end of the line *)
Inductive skips : list byte -> list byte -> Prop :=
| sk_none r : match r with [] => True | b :: _ => ~ blank b /\ b <> 35 end -> skips r r
| sk_blank b s r : blank b -> skips s r -> skips (b :: s) r
| sk_comment s t r : Forall (fun b => b <> 10) s -> skips t r -> skips (35 :: s ++ 10 :: t) r
| sk_last s : Forall (fun b => b <> 10) s -> skips (35 :: s) [].

Inductive tokens : list byte -> list token -> Prop :=
| tk_end s : skips s [] -> tokens s []
| tk_next s s' t r ts : skips s s' -> token_at s' t r -> tokens r ts -> tokens s (t :: ts).
End TOKENS.

(* ---- texts ---- *)
(* blanks and whole comments *)
Inductive gap : list byte -> Prop :=
| gap_end : gap []
| gap_blank b s : blank b -> gap s -> gap (b :: s)
| gap_comment s t : Forall (fun b => b <> 10) s -> gap t -> gap (35 :: s ++ 10 :: t).
(* one token: a keyword in letters of either case, a name, a number, a string or a character *)
Inductive spelled : list byte -> token -> Prop :=
| sp_keyword w u id : In (u, id) words -> map lower w = chars u -> spelled w (mk_tok id (TStr w false))
| sp_name b w : letter b \/ b = 95 -> Forall word_char w -> (forall u i, In (u, i) words -> map lower (b :: w) <> chars u) ->
    spelled (b :: w) (mk_tok KNAME (TStr (b :: w) false))
| sp_int ds : ds <> [] -> Forall digit ds -> spelled ds (mk_tok KINT (TInt (number ds mod 2 ^ 64)))
| sp_string q s : q = 34 \/ q = 39 -> quoted q s -> spelled (q :: s ++ [q]) (mk_tok KSTRING (TStr s (existsb (N.eqb 92) s)))
| sp_symbol b : symbol b -> b <> 34 -> b <> 39 -> b <> 35 -> spelled [b] (mk_tok b (TInt 0)).
(* tokens with a blank or a comment after each, but not necessarily after the last *)
Inductive written : list byte -> list token -> Prop :=
| wr_end g : gap g -> written g []
| wr_token g p t r ts : gap g -> spelled p t -> match r with [] => True | b :: _ => blank b \/ b = 35 end -> written r ts ->
    written (g ++ p ++ r) (t :: ts).

(* four integers or more in a row *)
Definition crowded (ts : list token) : Prop :=
  exists us a b c d vs, ts = us ++ a :: b :: c :: d :: vs /\ Forall (fun t => t_id t = KINT) [a; b; c; d].
(* the character $ *)
Definition dollar : token := mk_tok 36 (TInt 0).

(* a number followed by a unit is one number *)
Fixpoint with_units (ts : list token) : list token :=
  match ts with
  | [] => []
  | t :: ts =>
    match t_id t =? KINT, t_val t, ts with
    | true, TInt n, u :: ts' =>
      match factor (t_id u) with
      | Some k => mk_tok KINT (TInt ((n * k) mod 2 ^ 64)) :: with_units ts'
      | None => t :: with_units ts
      end
    | _, _, _ => t :: with_units ts
    end
  end.

(* ---- commands ---- *)
Definition kw (k : N) (t : token) : Prop := t_id t = k.
Definition string_of (t : token) (s : list byte) : Prop := exists e, t_val t = TStr s e.
Definition int (t : token) (n : N) : Prop := kw KINT t /\ t_val t = TInt n.
Definition name (t : token) (s : list byte) : Prop := kw KNAME t /\ string_of t s.
Definition text (t : token) (s : list byte) : Prop := kw KSTRING t /\ string_of t s.
(* a name or a keyword written as a word *)
Definition word (t : token) (s : list byte) : Prop := t_id t <> KSTRING /\ string_of t s.
Definition flag (t : token) (b : bool) : Prop := kw (if b then KTRUE else KFALSE) t.

Inductive if_exists : list token -> bool -> Prop :=
| ie_no : if_exists [] false
| ie_yes a b : kw KIF a -> kw KEXISTS b -> if_exists [a; b] true.
Inductive if_not_exists : list token -> bool -> Prop :=
| ine_no : if_not_exists [] false
| ine_yes a b c : kw KIF a -> kw KNOT b -> kw KEXISTS c -> if_not_exists [a; b; c] true.
Inductive if_cloud : list token -> bool -> Prop :=
| ic_no : if_cloud [] false
| ic_yes a b : kw KIF a -> kw KCLOUD b -> if_cloud [a; b] true.
(* which copies: 1 the local one, 8 the one on the cloud *)
Inductive copies : list token -> N -> Prop :=
| on_both : copies [] 9
| on_storage a b : kw KON a -> kw KSTORAGE b -> copies [a; b] 1
| on_cloud a b : kw KON a -> kw KCLOUD b -> copies [a; b] 8.
Inductive between : list token -> N -> N -> Prop :=
| btw a b c d n m : kw KBETWEEN a -> int b n -> kw KAND c -> int d m -> between [a; b; c; d] n m.

(* lists with commas, and options in parentheses *)
Inductive listed {A} (item : list token -> A -> Prop) : list token -> list A -> Prop :=
| li_one ts a : item ts a -> listed item ts [a]
| li_more ts a c rs l : item ts a -> kw COMMA c -> listed item rs l -> listed item (ts ++ c :: rs) (a :: l).
Inductive options {A} (item : list token -> A -> Prop) : list token -> list A -> Prop :=
| op_none : options item [] []
| op_empty a b : kw LPAREN a -> kw RPAREN b -> options item [a; b] []
| op_some a ts b l : kw LPAREN a -> listed item ts l -> kw RPAREN b -> options item (a :: ts ++ [b]) l.

(* options of a storage *)
Inductive setting :=
| SUuid (u : uuid) | SPath (s : list byte) | SCloud (s : list byte) | SDropLocal (b : bool) | SSync (b : bool) | SCrc (b : bool)
| SRefreshWm (z : Z) | SRegionSize (z : Z) | SCompression (s : list byte) | SLevel (z : Z) | SEncryption (s : list byte)
| SKey (s : list byte).
Definition setting_name (o : setting) : string :=
  match o with
  | SUuid _ => "uuid" | SPath _ => "path" | SCloud _ => "cloud" | SDropLocal _ => "cloud_drop_local" | SSync _ => "sync"
  | SCrc _ => "crc" | SRefreshWm _ => "refresh_wm" | SRegionSize _ => "region_size" | SCompression _ => "compression"
  | SLevel _ => "compression_level" | SEncryption _ => "encryption" | SKey _ => "encryption_key"
  end.
Definition signed (n : N) : Z := i64_of_u64 n.
Inductive setting_value : token -> setting -> Prop :=
| sv_uuid t s u : text t s -> uuid_from_string s = Some u -> setting_value t (SUuid u)
| sv_path t s : text t s -> setting_value t (SPath s)
| sv_cloud t s : text t s -> setting_value t (SCloud s)
| sv_drop t b : flag t b -> setting_value t (SDropLocal b)
| sv_sync t b : flag t b -> setting_value t (SSync b)
| sv_crc t b : flag t b -> setting_value t (SCrc b)
| sv_wm t n : int t n -> setting_value t (SRefreshWm (signed n))
| sv_region t n : int t n -> signed n <> 0%Z -> setting_value t (SRegionSize (signed n))
| sv_compression t s : text t s -> In s [chars ""; chars "none"; chars "zstd"; chars "lz4"] -> setting_value t (SCompression s)
| sv_level t n : int t n -> setting_value t (SLevel (signed n))
| sv_encryption t s : text t s -> In s [chars ""; chars "none"; chars "aes"] -> setting_value t (SEncryption s)
| sv_key t s : text t s -> s = [] \/ List.length s = 32%nat -> setting_value t (SKey s).
Inductive storage_item : list token -> setting -> Prop :=
| storage_it a b o : kw KNAME a \/ kw KCLOUD a -> string_of a (chars (setting_name o)) -> setting_value b o -> storage_item [a; b] o.

(* the last value given for a setting *)
Definition last_of {A B} (f : A -> option B) (l : list A) : option B :=
  fold_left (fun acc o => match f o with Some x => Some x | None => acc end) l None.
Definition altered (l : list setting) : salter :=
  mk_salter (last_of (fun o => match o with SPath s => Some s | _ => None end) l)
            (last_of (fun o => match o with SCloud s => Some s | _ => None end) l)
            (last_of (fun o => match o with SDropLocal b => Some b | _ => None end) l)
            (last_of (fun o => match o with SSync b => Some b | _ => None end) l)
            (last_of (fun o => match o with SCrc b => Some b | _ => None end) l)
            (last_of (fun o => match o with SRefreshWm z => Some z | _ => None end) l)
            (last_of (fun o => match o with SRegionSize z => Some z | _ => None end) l)
            (last_of (fun o => match o with SCompression s => Some s | _ => None end) l)
            (last_of (fun o => match o with SLevel z => Some z | _ => None end) l)
            (last_of (fun o => match o with SEncryption s => Some s | _ => None end) l)
            (last_of (fun o => match o with SKey s => Some s | _ => None end) l).
Definition given_or {A} (a : A) (o : option A) : A := match o with Some x => x | None => a end.
(* a new storage: what is not given is the default; with encryption and no key given, a random key *)
Definition created (e : env) (nm : list byte) (l : list setting) : source :=
  let a := altered l in
  let plain := match en_compression e with [] => true | _ => false end in
  let enc := given_or [] (al_encryption a) in
  let key := given_or [] (al_key a) in
  mk_source (given_or (en_uuid e) (last_of (fun o => match o with SUuid u => Some u | _ => None end) l))
            nm (given_or [] (al_path a)) (given_or [] (al_cloud a))
            (given_or true (al_drop_local a)) (given_or true (al_sync a)) (given_or false (al_crc a))
            (given_or (40 * 1024 * 1024)%Z (al_refresh_wm a)) (given_or (128 * 1024)%Z (al_region_size a))
            (given_or (en_compression e) (al_compression a))
            (given_or (if plain then 0%Z else narrow (en_level e)) (al_level a))
            enc
            (match enc, key with
             | [97; 101; 115], [] => en_key e
             | _, _ => key
             end).

(* options of a cloud *)
Inductive csetting := CType (s : list byte) | CUrl (s : list byte) | CLogin (s : list byte) | CPassword (s : list byte) | CDebug (b : bool).
Definition csetting_name (o : csetting) (n : string) : Prop :=
  match o with
  | CType _ => n = "type" | CUrl _ => n = "url" | CLogin _ => n = "login" \/ n = "access_key"
  | CPassword _ => n = "password" \/ n = "secret_key" | CDebug _ => n = "debug"
  end%string.
Inductive csetting_value : token -> csetting -> Prop :=
| cv_type t s : text t s -> csetting_value t (CType s)
| cv_url t s : text t s -> csetting_value t (CUrl s)
| cv_login t s : text t s -> csetting_value t (CLogin s)
| cv_password t s : text t s -> csetting_value t (CPassword s)
| cv_debug t b : flag t b -> csetting_value t (CDebug b).
Inductive cloud_item : list token -> csetting -> Prop :=
| cloud_it a b n o : kw KNAME a \/ kw KCLOUD a \/ kw KDEBUG a -> csetting_name o n -> string_of a (chars n) -> csetting_value b o ->
    cloud_item [a; b] o.
Definition last_type (l : list csetting) := last_of (fun o => match o with CType s => Some s | _ => None end) l.
Definition caltered (l : list csetting) : calter :=
  mk_calter (last_of (fun o => match o with CLogin s => Some s | _ => None end) l)
            (last_of (fun o => match o with CPassword s => Some s | _ => None end) l)
            (last_of (fun o => match o with CUrl s => Some s | _ => None end) l)
            (last_of (fun o => match o with CDebug b => Some b | _ => None end) l).
Definition ccreated (nm : list byte) (l : list csetting) : cloudc :=
  let a := caltered l in
  mk_cloudc nm (given_or [] (last_type l)) (given_or [] (ac_login a)) (given_or [] (ac_password a)) (given_or [] (ac_url a))
            (given_or false (ac_debug a)).

(* options of a tier *)
Inductive tsetting := TPartitions (z : Z) | TSize (z : Z) | TEvents (z : Z) | TDuration (z : Z).
Definition tsetting_name (o : tsetting) : string :=
  match o with TPartitions _ => "partitions" | TSize _ => "size" | TEvents _ => "events" | TDuration _ => "duration" end.
Definition tsetting_int (o : tsetting) : Z := match o with TPartitions z | TSize z | TEvents z | TDuration z => z end.
Inductive tier_item : list token -> tsetting -> Prop :=
| tier_it a b n o : kw KNAME a \/ kw KPARTITIONS a -> string_of a (chars (tsetting_name o)) -> int b n -> tsetting_int o = signed n ->
    tier_item [a; b] o.
Definition tier_of (nm : list byte) (l : list tsetting) : tierc :=
  mk_tierc nm (given_or (-1)%Z (last_of (fun o => match o with TPartitions z => Some z | _ => None end) l))
              (given_or (-1)%Z (last_of (fun o => match o with TSize z => Some z | _ => None end) l))
              (given_or (-1)%Z (last_of (fun o => match o with TEvents z => Some z | _ => None end) l))
              (given_or (-1)%Z (last_of (fun o => match o with TDuration z => Some z | _ => None end) l)).
(* the tiers; after empty parentheses comes the next tier, with no comma *)
Inductive tiers : list token -> list tierc -> Prop :=
| ti_last n nm : name n nm -> tiers [n] [tier_of nm []]
| ti_comma n nm c r l : name n nm -> kw COMMA c -> tiers r l -> tiers (n :: c :: r) (tier_of nm [] :: l)
| ti_empty n nm a b r l : name n nm -> kw LPAREN a -> kw RPAREN b -> tiers r l -> tiers (n :: a :: b :: r) (tier_of nm [] :: l)
| ti_options_last n nm a os b l : name n nm -> kw LPAREN a -> listed tier_item os l -> kw RPAREN b ->
    tiers (n :: a :: os ++ [b]) [tier_of nm l]
| ti_options_comma n nm a os b l c r ts : name n nm -> kw LPAREN a -> listed tier_item os l -> kw RPAREN b -> kw COMMA c ->
    tiers r ts -> tiers (n :: a :: os ++ b :: c :: r) (tier_of nm l :: ts).

(* elements of SHOW *)
Inductive shows_what : list token -> (bool -> sop) -> Prop :=
| sw_memory t : kw KMEMORY t -> shows_what [t] (fun _ => OpMemory)
| sw_wal t : kw KWAL t -> shows_what [t] (fun _ => Op ShowWal)
| sw_cloud t n s : kw KCLOUD t -> name n s -> shows_what [t; n] (fun _ => Op (ShowClouds (Some s)))
| sw_clouds t : kw KCLOUDS t -> shows_what [t] (fun _ => Op (ShowClouds None))
| sw_storage t n s : kw KSTORAGE t -> name n s -> shows_what [t; n] (fun d => Op (ShowStorages (Some s) d))
| sw_storages t : kw KSTORAGES t -> shows_what [t] (fun d => Op (ShowStorages None d))
| sw_partition t n i : kw KPARTITION t -> int n i -> shows_what [t; n] (fun d => Op (ShowPartition i d))
| sw_partitions t : kw KPARTITIONS t -> shows_what [t] (fun d => Op (ShowPartitions None d))
| sw_partitions_of t n s : kw KPARTITIONS t -> name n s -> shows_what [t; n] (fun d => Op (ShowPartitions (Some s) d))
| sw_pipeline t : kw KPIPELINE t -> shows_what [t] (fun _ => Op ShowPipeline)
| sw_variable t n s : kw KCONFIG t \/ kw KALL t -> word n s \/ text n s -> shows_what [t; n] (fun _ => Op (ShowName s))
| sw_name t s : name t s \/ text t s -> shows_what [t] (fun _ => Op (ShowName s)).
Inductive shows_item : list token -> sop -> Prop :=
| si_plain ts f : shows_what ts f -> shows_item ts (f false)
| si_debug ts f t : shows_what ts f -> kw KDEBUG t -> shows_item (ts ++ [t]) (f true)
| si_config t : kw KCONFIG t \/ kw KALL t -> shows_item [t] (Op ShowConfig).
(* a word after CONFIG or ALL is the name of a variable, even if it is a keyword *)
Inductive shows : list token -> list sop -> Prop :=
| sh_one ts o : shows_item ts o -> shows ts [o]
| sh_more ts o c r l : shows_item ts o -> kw COMMA c -> (o = Op ShowConfig -> forall s, ~ word c s) -> shows r l ->
    shows (ts ++ c :: r) (o :: l).

Definition debug_names : list (string * N) :=
  [ ("wal_create", DEBUG_WAL_CREATE); ("wal_gc", DEBUG_WAL_GC); ("wal_read", DEBUG_WAL_READ); ("memory_gc", DEBUG_MEMORY_GC) ]%string.

Inductive sentence (e : env) : list token -> option cmd -> Prop :=
| se_nothing : sentence e [] None
| se_set a n s b v : kw KSET a -> word n s -> kw KTO b -> sentence e [a; n; b; v] (Some (CmdSet s v))
| se_set_nothing a n s b : kw KSET a -> word n s -> kw KTO b -> sentence e [a; n; b] (Some (CmdSet s (mk_tok KEOF TNone)))
| se_show a ts l : kw KSHOW a -> shows ts l -> sentence e (a :: ts) (Some (CmdShow l))
| se_debug a b nm i : kw KDEBUG a -> text b (chars nm) -> In (nm, i) debug_names -> sentence e [a; b] (Some (CmdDebug i))
| se_checkpoint a : kw KCHECKPOINT a -> sentence e [a] (Some CmdCheckpoint)
| se_service a : kw KSERVICE a -> sentence e [a] (Some CmdService)
| se_rebalance a : kw KREBALANCE a -> sentence e [a] (Some CmdRebalance)
| se_cloud_create a b ie x n nm os l : kw KCREATE a -> kw KCLOUD b -> if_not_exists ie x -> name n nm -> options cloud_item os l ->
    sentence e (a :: b :: ie ++ n :: os) (Some (CmdCatalog (CloudCreate (ccreated nm l) x)))
| se_cloud_drop a b ie x n nm : kw KDROP a -> kw KCLOUD b -> if_exists ie x -> name n nm ->
    sentence e (a :: b :: ie ++ [n]) (Some (CmdCatalog (CloudDrop nm x)))
| se_cloud_rename a b ie x n nm c m mm : kw KALTER a -> kw KCLOUD b -> if_exists ie x -> name n nm -> kw KRENAME c -> name m mm ->
    sentence e (a :: b :: ie ++ [n; c; m]) (Some (CmdCatalog (CloudRename nm mm x)))
| se_cloud_rename_to a b ie x n nm c d m mm : kw KALTER a -> kw KCLOUD b -> if_exists ie x -> name n nm -> kw KRENAME c -> kw KTO d -> name m mm ->
    sentence e (a :: b :: ie ++ [n; c; d; m]) (Some (CmdCatalog (CloudRename nm mm x)))
| se_cloud_alter a b ie x n nm c os l : kw KALTER a -> kw KCLOUD b -> if_exists ie x -> name n nm -> kw KSET c -> options cloud_item os l ->
    last_type l = None ->
    sentence e (a :: b :: ie ++ n :: c :: os) (Some (CmdCatalog (CloudAlter nm (caltered l) x)))
| se_storage_create a b ie x n nm os l : kw KCREATE a -> kw KSTORAGE b -> if_not_exists ie x -> name n nm -> options storage_item os l ->
    sentence e (a :: b :: ie ++ n :: os) (Some (CmdCatalog (StorageCreate (created e nm l) x)))
| se_storage_drop a b ie x n nm : kw KDROP a -> kw KSTORAGE b -> if_exists ie x -> name n nm ->
    sentence e (a :: b :: ie ++ [n]) (Some (CmdCatalog (StorageDrop nm x)))
| se_storage_rename a b ie x n nm c m mm : kw KALTER a -> kw KSTORAGE b -> if_exists ie x -> name n nm -> kw KRENAME c -> name m mm ->
    sentence e (a :: b :: ie ++ [n; c; m]) (Some (CmdCatalog (StorageRename nm mm x)))
| se_storage_rename_to a b ie x n nm c d m mm : kw KALTER a -> kw KSTORAGE b -> if_exists ie x -> name n nm -> kw KRENAME c -> kw KTO d ->
    name m mm -> sentence e (a :: b :: ie ++ [n; c; d; m]) (Some (CmdCatalog (StorageRename nm mm x)))
| se_storage_alter a b ie x n nm c os l : kw KALTER a -> kw KSTORAGE b -> if_exists ie x -> name n nm -> kw KSET c -> options storage_item os l ->
    (forall u, ~ In (SUuid u) l) ->
    sentence e (a :: b :: ie ++ n :: c :: os) (Some (CmdCatalog (StorageAlter nm (altered l) x)))
| se_pipeline_reset a b c : kw KALTER a -> kw KPIPELINE b -> kw KRESET c -> sentence e [a; b; c] (Some (CmdCatalog (PipelineAlter [])))
| se_pipeline_set a b c ts l : kw KALTER a -> kw KPIPELINE b -> kw KSET c -> tiers ts l ->
    sentence e (a :: b :: c :: ts) (Some (CmdCatalog (PipelineAlter l)))
| se_create a b i n : kw KCREATE a -> kw KPARTITION b -> int i n ->
    sentence e [a; b; i] (Some (CmdCreate n ((n + en_interval e) mod 2 ^ 64)))
| se_create_max a b i n j m : kw KCREATE a -> kw KPARTITION b -> int i n -> int j m -> sentence e [a; b; i; j] (Some (CmdCreate n m))
| se_drop a b ie x i n on mask : kw KDROP a -> kw KPARTITION b -> if_exists ie x -> int i n -> copies on mask ->
    sentence e (a :: b :: ie ++ i :: on) (Some (CmdDrop n x mask))
| se_drop_range a b bt n m on mask : kw KDROP a -> kw KPARTITIONS b -> between bt n m -> copies on mask ->
    sentence e (a :: b :: bt ++ on) (Some (CmdDropRange n m mask))
| se_move a b ie x i n c s nm : kw KMOVE a -> kw KPARTITION b -> if_exists ie x -> int i n -> kw KINTO c -> name s nm ->
    sentence e (a :: b :: ie ++ [i; c; s]) (Some (CmdMove n x nm))
| se_move_range a b bt n m c s nm : kw KMOVE a -> kw KPARTITIONS b -> between bt n m -> kw KINTO c -> name s nm ->
    sentence e (a :: b :: bt ++ [c; s]) (Some (CmdMoveRange n m nm))
| se_refresh a b ie x i n : kw KREFRESH a -> kw KPARTITION b -> if_exists ie x -> int i n ->
    sentence e (a :: b :: ie ++ [i]) (Some (CmdRefresh n x))
| se_refresh_range a b bt n m : kw KREFRESH a -> kw KPARTITIONS b -> between bt n m ->
    sentence e (a :: b :: bt) (Some (CmdRefreshRange n m))
| se_download a b ie x i n ic y : kw KDOWNLOAD a -> kw KPARTITION b -> if_exists ie x -> int i n -> if_cloud ic y ->
    sentence e (a :: b :: ie ++ i :: ic) (Some (CmdDownload n x y))
| se_download_range a b bt n m ic y : kw KDOWNLOAD a -> kw KPARTITIONS b -> between bt n m -> if_cloud ic y ->
    sentence e (a :: b :: bt ++ ic) (Some (CmdDownloadRange n m y))
| se_upload a b ie x i n ic y : kw KUPLOAD a -> kw KPARTITION b -> if_exists ie x -> int i n -> if_cloud ic y ->
    sentence e (a :: b :: ie ++ i :: ic) (Some (CmdUpload n x y))
| se_upload_range a b bt n m ic y : kw KUPLOAD a -> kw KPARTITIONS b -> between bt n m -> if_cloud ic y ->
    sentence e (a :: b :: bt ++ ic) (Some (CmdUploadRange n m y)).

(* ---- which lock ---- *)
Definition locked_shared (ts : list token) : Prop := exists t r, ts = t :: r /\ kw KSHOW t.
Definition locked_exclusive (ts : list token) : Prop :=
  exists t u r, ts = t :: u :: r /\
    (kw KSET t \/ (kw KCREATE t \/ kw KDROP t \/ kw KALTER t) /\ (kw KCLOUD u \/ kw KSTORAGE u \/ kw KPIPELINE u)).
