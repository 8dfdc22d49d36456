from refs1 import OBT
M=[]
def m(id,thm,edits,english,ref,pre=''): M.append(dict(id=id,thm=thm,edits=edits,english=english,ref=ref,pre=pre))
TOK='Lemma reach0 g pw s : reachable g pw s (tokenizer_new s). Proof. exists []. reflexivity. Qed.\n'
m('U01','C02_value_is_denoted_tree_bytes',[('ValueModel',"d_boolean := fun st b => (Ok (VBoolean b), st);","d_boolean := fun st b => (Ok (VBoolean false), st);")],
 'true is read as false','''intro H. destruct (H W64 config_default (bs "true") (VBoolean false)) as [(w1 & u & w2 & _ & U & _ & E) _]; [slice|c|].
 inversion U; subst. apply (f_equal (@length N)) in E. rewrite !app_length in E. cbn in E. lia.''')
m('U03','C11_document_to_value_bytes',[('DocModel',"loop len' (values ++ [v]) rest3","loop len' (v :: values) rest3")],
 'conversion to a Value reverses arrays','''intro H. destruct (H W64 config_default (bs "[1,2]") v0) as [K _]; [slice|]. destruct (K ltac:(c)) as (doc & E1 & E2). vm_compute in E1. injection E1 as <-. bad E2.''',
 'Definition v0 := Eval vm_compute in match value_from_json_bytes W64 (bs "[1,2]") with Ok v => v | _ => VNull end.\n')
m('U04','C14_bounded_capacity',[('DocModel',"if Nat.ltb (length c) k then","if Nat.leb (length c) k then")],
 'a bounded document takes one node too many','''intro H. destruct (H W64 config_default 0%nat (bs "1") d0) as [K _]; [slice|]. destruct (K ltac:(c)) as [_ L]. cbn in L. lia.''',
 'Definition d0 := Eval vm_compute in match document_from_json_bytes_with_config W64 None (bs "1") config_default with Ok v => v | _ => [] end.\n')
m('U05','C15_canonical_log_of_accepted',[('Parser',"pbind (p_del offset (fun st => d_array_value D st array value)) (fun array =>\n        pbind p_offset","pbind (p_del offset (fun st => d_array_value D st array value)) (fun _ =>\n        pbind (p_del offset (fun st => d_array_value D st array value)) (fun array =>\n        pbind p_offset"),('Parser',"        | _ => perr offset KExpectedCommaOrEndOfArray\n        end)))))))","        | _ => perr offset KExpectedCommaOrEndOfArray\n        end))))))))")],
 'array_value is called twice for every element','''intro H. specialize (H false W64 config_default (bs "[null]") v0). assert (G : forall P : Prop, P -> (P -> False) -> False) by tauto. refine (G _ (H _ _) _); [slice|c|]. intro K. bad K.''',
 'Definition v0 := Eval vm_compute in match value_from_json_bytes W64 (bs "[null]") with Ok v => v | _ => VNull end.\n')
m('U06','C72_balanced_on_success',[('Parser',"pbind (p_del offset (fun st => d_begin_array D st)) (fun array =>","pbind (p_del offset (fun st => d_begin_array D st)) (fun _ =>\n    pbind (p_del offset (fun st => d_begin_array D st)) (fun array =>"),('Parser',"    pbind end_nest (fun _ => pret value))))).\n\n(*","    pbind end_nest (fun _ => pret value)))))).\n\n(*") if 0 else ('Parser',"    pbind (p_del offset (fun st => d_end_array D st array)) (fun value =>\n    pbind end_nest (fun _ => pret value))))).","    pbind (p_del offset (fun st => d_end_array D st array)) (fun value =>\n    pbind end_nest (fun _ => pret value)))))).")],
 'begin_array is called twice','''intro H. specialize (H false W64 config_default unit_delegate (bs "[]") tt JkArray tt l0 ltac:(c)). bad H.''',
 'Definition l0 := Eval vm_compute in snd (snd (parse_with false W64 (recording unit_delegate) (bs "[]") config_default (tt, []))).\n')
m('U07','C16_C50_parse_error_offsets',[('Tokenizer',"| (None, it') => (Err (Error (bi_offset it') KUnexpectedEof), it')","| (None, it') => (Err (Error (bi_offset it' + 1) KUnexpectedEof), it')")],
 'the end of the input is reported one past the end','''intro H. destruct (H W64 config_default None []) as (L & _); [slice|]. destruct L as [L _]. vm_compute in L. lia.''')
m('U08','C16_C50_token_error_offsets',[('Tokenizer',"else terr (Error offset KInvalidEscape)","else terr (Error (offset + 2) KInvalidEscape)")],
 'an invalid escape is reported two bytes late','''intro H. destruct (H false W64 [34; 92; 120] (tokenizer_new [34; 92; 120]) (Error 4 KInvalidEscape) (BI [34; 92; 120] 3)) as [L _]; [slice|apply reach0|left; c|]. vm_compute in L. lia.''',TOK)
m('U09','C16_C50_any_delegate',[('Parser',"perr 0 KPayloadsShouldBeObjectOrArray","perr 2 KPayloadsShouldBeObjectOrArray")],
 'a scalar at the root is reported beyond the input','''intro H. destruct (H W64 (Config false None false) unit_delegate (bs "1") tt (Error 2 KPayloadsShouldBeObjectOrArray)) as [L _]; [slice|c|]. vm_compute in L. lia.''')
m('U10','C18_peek_predicts',[('Tokenizer',"else if (b =? 45) || ((48 <=? b) && (b <=? 57)) then PkNumber","else if (b =? 45) || ((48 <=? b) && (b <=? 56)) then PkNumber")],
 'peek does not know the digit 9','''intro H. specialize (H false W64 (bs "9") (tokenizer_new (bs "9"))). assert (G : forall P : Prop, P -> (P -> False) -> False) by tauto. refine (G _ (H _ _) _); [slice|apply reach0|]. intro K. bad K.''',TOK)
m('U11','C18_peek_is_transparent',[('Tokenizer',"| Some b => (Some (peek_kind_of b), it')","| Some b => (Some (peek_kind_of b), snd (bi_next it'))")],
 'peek consumes a byte','''intro H. specialize (H false W64 (bs "12") (tokenizer_new (bs "12"))). cbv zeta in H. destruct H as (_ & K & _); [slice|apply reach0|bad K].''',TOK)
m('U12','C22_decoded_exactly',[('StrModel',"if c =? 110 (* n *) then ret 0x0A it2","if c =? 110 (* n *) then ret 0x0D it2")],
 '\\\\n is decoded as a carriage return','''intro H. destruct (H W64 xn [ISimple 110]) as [K _]; [apply (parsed_string W64 xn (bs """\\n""")); [str|c]| |bad K].
 change (stored xn) with ([92; 110] ++ []). constructor; [|constructor]. constructor. vm_compute. tauto.''',
 'Definition xn : json_string := Eval vm_compute in match string_from_json W64 (bs """\\n""") with Ok x => x | _ => JStr (CRaw (Borrowed [])) 0 end.\n')
m('U13','C26_eq_exactly',[('StrModel',"if expected_length pw (js_info s) =? expected_length pw (js_info other) then\n        zip_all_eq","if true then\n        zip_all_eq")],
 'strings with escapes are compared up to the end of the shorter one','''intro H. destruct (H W64 xe x2 [65] [65; 66]) as (b & E & K); [exact oe|exact o2|c|c|]. vm_compute in E. injection E as <-. destruct K as [K _]. destruct (K eq_refl) as [K1 _]. discriminate K1.''',
 OBT+'''Definition x2 : json_string := Eval vm_compute in match string_from_json W64 (bs """\\u0041B""") with Ok x => x | _ => JStr (CRaw (Borrowed [])) 0 end.
Lemma o2 : obtainable W64 x2. Proof. left. apply (parsed_string W64 x2 (bs """\\u0041B""")); [str|c]. Qed.
''')
m('U14','C27_eq_symmetric',[('StrModel',"| false, true => js_eq_str pw other (any_str a)","| false, true => js_eq_str pw s (any_str b)")],
 'a plain string is compared with the source of an escaped one','''intro H. specialize (H W64 xe ya oe oa). bad H.''',OBT)
m('U15','C28_cmp_is_text_order',[('StrModel',"let? c := expect_some o in Ok (CompOpp c)","let? c := expect_some o in Ok c")],
 'cmp of a raw and a JSON string is the wrong way round','''intro H. destruct (H W64 xr ya [10] [65]) as (K & _); [exact orr|exact oa|c|c|bad K].''',
 OBT+'''Definition xr := Eval vm_compute in match js_from_str W64 [10] with Ok v => v | _ => JStr (CRaw (Borrowed [])) 0 end.
Lemma orr : obtainable W64 xr. Proof. right. exists [10]. split; [str|left; c]. Qed.
''')
m('U16','C31_from_keeps_text',[('StrModel',"if has_escapes pw (aj_info escaped) then Ok (JStr (CRaw value) (aj_info escaped))","if false then Ok (JStr (CRaw value) (aj_info escaped))")],
 'From<&str> stores every text as if it were JSON','''intro H. destruct (H W64 [92] x0) as (cs & _ & _ & K & _); [split; [str|left; c]|bad K].''',
 'Definition x0 := Eval vm_compute in match js_from_str W64 [92] with Ok v => v | _ => JStr (CRaw (Borrowed [])) 0 end.\n')
m('U17','C32_escaping_denotes_text_partial',[('StrModel',"else if ch =? 0x09 then single 116","else if ch =? 0x09 then single 110")],
 'a tab is escaped as \\\\n','''intro H. destruct (H W64 [9] x0 [9] [92; 110]) as [K _]; [split; [str|left; c]|c|c|repeat constructor; right; vm_compute; tauto|].
 assert (E : utf8_string [92; 110] = [92; 110]) by c. rewrite E in K. clear E. remember [92; 110] as t eqn:Et. destruct K as [|a ch r cs I R] eqn:EK. all: idtac.
 - discriminate Et.
 - clear EK. inversion I; subst; try discriminate.
   + destruct (utf8_encode ch) as [|b0 u0] eqn:U; [unfold utf8_encode in U; repeat (destruct (_ <=? _) in U || destruct (_ <? _) in U); discriminate U|]. admit.
   + admit.''' if 0 else '''intro H. destruct (H W64 [9] x0 [9] [92; 110]) as [K _]; [split; [str|left; c]|c|c|repeat constructor; right; vm_compute; tauto|].
 assert (E : utf8_string [92; 110] = [92; 110]) by c. rewrite E in K. clear E.
 assert (B : str_body [92; 110] [10]).
 { change [92; 110] with ([92; 110] ++ []). constructor; [|constructor]. constructor. vm_compute. tauto. }
 pose proof (str_body_det _ _ _ B K) as D. discriminate D.''',
 'Definition x0 := Eval vm_compute in match js_from_str W64 [9] with Ok v => v | _ => JStr (CRaw (Borrowed [])) 0 end.\n')
m('U18','C36_C37_layout',[('ValueModel',"(if pretty then [58%N; 32%N] else [58%N])","(if pretty then [58%N] else [58%N])")],
 'pretty text has no space after the colon','''intro H. destruct (H W64 config_default (bs "{""a"":1}") v1) as (_ & _ & K); [from|bad K].''',
 '''Definition v1 := Eval vm_compute in match value_from_json_bytes W64 (bs "{""a"":1}") with Ok v => v | _ => VNull end.
''')
m('U19','C45_from_never_panics',[('StrModel',"else u8_add bits 97) in","else u8_add bits 250) in")],
 'escaping a vertical tab overflows a byte','''intro H. destruct (H W64 [11] [11]) as [(x & E) _]; [repeat constructor|c|str|vm_compute; discriminate|bad E].''')
m('U20','C46_string_from_json',[('NumModel',"d_null := fun st => (Err k, st);","d_null := fun st => (str (JStr (CJson (Borrowed [])) 0%N), st);")],
 'JsonString::from_json takes null for the empty string','''intro H. destruct (H W64 (bs "null") (JStr (CJson (Borrowed [])) 0)) as [K _]; [str|]. assert (E := K ltac:(c)). bad E.''')
m('U21','C46_other_values',[('NumModel',"scalar_delegate json_number KExpectedNumber (fun n => Ok n) (fun _ => Err KExpectedNumber).","scalar_delegate json_number KExpectedNumber (fun n => Ok n) (fun s => Ok (JNum (Borrowed (contents_str (js_source s))))).")],
 'JsonNumber::from_json takes a string','''intro H. destruct (H W64 (bs """1""") (VString y1)) as [_ K]; [str|c|]. destruct K as (o & K); [intros a E; discriminate E|bad K].''',
 'Definition y1 := Eval vm_compute in match string_from_json W64 (bs """1""") with Ok v => v | _ => JStr (CRaw (Borrowed [])) 0 end.\n')
m('U22','C48_whitespace_is_insignificant',[('Tokenizer',"(b =? 9) || (b =? 13)","(b =? 9) || (b =? 12)")],
 'carriage return is not whitespace','''intro H. destruct (H W64 config_default [bs "1"] (bs "1") (13 :: bs "1") (VNumber (JNum (Borrowed (bs "1"))))) as [K _]; [slice|slice| | |].
 - change (bs "1") with ([] ++ bs "1" ++ []). apply (sp_lexeme [] (bs "1") [] []); [constructor| |constructor; constructor|intros _ (y & r & E & _); discriminate E]. exact L1.
 - change (13 :: bs "1") with ([13] ++ bs "1" ++ []). apply (sp_lexeme [13] (bs "1") [] []); [repeat constructor; unfold ws_byte; lia| |constructor; constructor|intros _ (y & r & E & _); discriminate E]. exact L1.
 - assert (E := K ltac:(c)). bad E.''',
 '''Lemma N1 : number (bs "1"). Proof. exists [], [49], [], []. split; [left; reflexivity|]. split; [right; exists 49, []; repeat split; try lia; constructor|]. repeat split; left; reflexivity. Qed.
Lemma L1 : lexeme (bs "1"). Proof. exact (lex_num _ N1). Qed.
''')
m('U23','C56_error_is_the_described_one',[('Parser',"(Err (Error offset KTrailingNonWhitespace), PS it","(Err (Error 0 KTrailingNonWhitespace), PS it")],
 'trailing text is reported at offset 0','''intro H. destruct (H W64 config_default (bs "null x") 5%nat KTrailingNonWhitespace) as [_ K]; [slice|]. assert (W : wrong_at config_default (bs "null x") 5 KTrailingNonWhitespace).
 - change (bs "null x") with ([] ++ bs "null" ++ [32] ++ 120 :: []). change 5%nat with (length ([] ++ bs "null" ++ [32])). unfold wrong_at. apply (xe_trailing _ _ _ [] TNull (bs "null") [32] 120 []); [constructor| |left; reflexivity|repeat constructor; unfold ws_byte; lia|unfold ws_byte; lia].
   split; [constructor|]. split; [intros n E; discriminate E|]. intros n E. cbn in E. first [discriminate E|injection E as <-; vm_compute; discriminate].
 - apply K in W. bad W.''')
m('U24','C66_described_callbacks_are_made',[('Parser',"| TkNull => p_del offset (fun st => d_null D st)","| TkNull => p_del (S offset) (fun st => d_null D st)")],
 'an error of null() is reported one byte late','''intro H. destruct (H false W64 (bs "null") [] 0%nat CNull) as (ev & st' & E & _); [slice| |bad E].
 change (bs "null") with (bs "null" ++ []). apply vu_value; [apply (vc_scalar [] (bs "null") CNull); constructor|].
 intros w n _ N E. apply number_first in N as (b & r & -> & Hb). admit.''' if 0 else '''intro H. destruct (H false W64 (bs "null") [] 0%nat CNull) as (ev & st' & E & _); [slice| |bad E].
 change (bs "null") with (bs "null" ++ []). apply vu_value; [apply (vc_scalar [] (bs "null") CNull); constructor|].
 intros w n W N E. apply number_first in N as (b & r & -> & Hb). exfalso. cbn in E. destruct w as [|b0 w]; [injection E as <- _; lia|injection E as <- _; inversion W; subst; unfold ws_byte in *; lia].''')
m('U25','C67_too_large_is_exact',[('Parser',"| TkNull => p_del offset (fun st => d_null D st)","| TkNull => p_del (S offset) (fun st => d_null D st)")],
 'a full document is reported one byte late','''intro H. specialize (H W64 config_default 0%nat (bs "null") [NNull] [] 0%nat CNull).
 assert (G : forall P : Prop, P -> (P -> False) -> False) by tauto. refine (G _ (H _ _ _ _ _ _) _); [slice|c|cbn; lia| |c|c|intro E; bad E].
 change (bs "null") with (bs "null" ++ []). apply vu_value; [apply (vc_scalar [] (bs "null") CNull); constructor|].
 intros w n W N E. apply number_first in N as (b & r & -> & Hb). exfalso. cbn in E. destruct w as [|b0 w]; [injection E as <- _; lia|injection E as <- _; inversion W; subst; unfold ws_byte in *; lia].''')
m('U26','C73_like_value_equality',[('DocModel',"| NBoolean x, NBoolean y => Ok (Bool.eqb x y)","| NBoolean x, NBoolean y => Ok true")],
 'documents true and false are equal','''intro H. destruct (H W64 (VBoolean true) (VBoolean false)) as (b & E1 & E2); [constructor|constructor|]. vm_compute in E1, E2. injection E1 as <-. discriminate E2.''')
m('U27','C82_stores_the_value',[('DocModel',"d_object_value := fun c object _ _ => (Ok object, c);","d_object_value := fun c object _ _ => (Ok 0%nat, c);")],'','') if 0 else None
m('U28','C85_string_display',[('DisplayModel',"XX","")],'','') if 0 else None
m('U29','C62_exactly_one_accessor',[('ValueModel',"XX","")],'','') if 0 else None
