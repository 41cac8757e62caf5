(** Model of what main.rs writes to [inspect_output]: the schema as JSON.

    The components derive [serde::Serialize] (src/component.rs, src/file.rs, src/fm_script_engine/fm_script_engine_instructions.rs); the text is
    that of [serde_json::to_string_pretty] (main.rs:55 and 78).  Both are third-party code that is not in /repo; they are modelled after their
    documentation: structures are objects with the names of the fields in the order of declaration, maps are objects whose names are the keys in decimal, unit variants of
    enumerations are strings with their name. *)
From Coq Require Import Ascii String NArith List Bool.
From Verif Require Import Prelude InstrModel ComponentModel.
Import ListNotations.
Local Open Scope N_scope.

(** The data passed to the serializer (main.rs:55 and 78).  A number has the digits that are printed. *)
Inductive json :=
| JNull
| JBool (b : bool)
| JNumber (digits : list N)
| JString (s : list N)
| JArray (l : list json)
| JObject (l : list (list N * json)).

(** ** [Serialize] *)

(** Decimal digits of a [usize] or [u16] (serde_json uses the crate itoa), and the values the derived code of component.rs:8-261 and file.rs:7 builds. *)
Fixpoint digits_loop (fuel : nat) (n : N) : list N :=
  match fuel with
  | O => []
  | S fuel => if n <? 10 then [48 + n] else digits_loop fuel (n / 10) ++ [48 + n mod 10]
  end.
Definition digits (n : N) : list N := digits_loop (S (N.size_nat n)) n.
Definition number (n : N) : json := JNumber (digits n).

Definition texts (l : list (list N)) : json := JArray (map JString l).
Definition object (l : list (string * json)) : json := JObject (map (fun e => (lit (fst e), snd e)) l).
Definition map_json {V} (js : V -> json) (m : list (N * V)) : json := JObject (map (fun e => (digits (fst e), js (snd e))) m).

(** src/fm_script_engine/fm_script_engine_instructions.rs:5-199 [Instruction]: the names of its variants. *)
Definition instr_name (i : instruction) : list N :=
  match i with
  | IPerformScript => lit "PerformScript"
  | ISaveACopyAsXml => lit "SaveACopyAsXml"
  | IGoToNextField => lit "GoToNextField"
  | IGoToPreviousField => lit "GoToPreviousField"
  | IGoToLayout => lit "GoToLayout"
  | INewRecordRequest => lit "NewRecordRequest"
  | IDuplicateRecordRequest => lit "DuplicateRecordRequest"
  | IDeleteRecordRequest => lit "DeleteRecordRequest"
  | IDeleteAllRecords => lit "DeleteAllRecords"
  | IInsertFromIndex => lit "InsertFromIndex"
  | IInsertFromLastVisited => lit "InsertFromLastVisited"
  | IInsertCurrentDate => lit "InsertCurrentDate"
  | IInsertCurrentTime => lit "InsertCurrentTime"
  | IGoToRecordRequestPage => lit "GoToRecordRequestPage"
  | IGoToField => lit "GoToField"
  | ICheckSelection => lit "CheckSelection"
  | ICheckRecord => lit "CheckRecord"
  | ICheckFoundSet => lit "CheckFoundSet"
  | IUnsortRecords => lit "UnsortRecords"
  | IEnterFindMode => lit "EnterFindMode"
  | IShowAllRecords => lit "ShowAllRecords"
  | IModifyLastFind => lit "ModifyLastFind"
  | IOmitRecord => lit "OmitRecord"
  | IOmitMultipleRecords => lit "OmitMultipleRecords"
  | IShowOmmitedOnly => lit "ShowOmmitedOnly"
  | IPerformFind => lit "PerformFind"
  | IShowHideToolbars => lit "ShowHideToolbars"
  | IViewAs => lit "ViewAs"
  | IAdjustWindow => lit "AdjustWindow"
  | IOpenHelp => lit "OpenHelp"
  | IOpenFile => lit "OpenFile"
  | ICloseFile => lit "CloseFile"
  | IImportRecords => lit "ImportRecords"
  | IExportRecords => lit "ExportRecords"
  | ISaveACopyAs => lit "SaveACopyAs"
  | IOpenManageDatabase => lit "OpenManageDatabase"
  | ISortRecords => lit "SortRecords"
  | IRelookupFieldContents => lit "RelookupFieldContents"
  | IEnterPreviewMode => lit "EnterPreviewMode"
  | IPrintSetup => lit "PrintSetup"
  | IPrint => lit "Print"
  | IExitApplication => lit "ExitApplication"
  | IUndoRedo => lit "UndoRedo"
  | ICut => lit "Cut"
  | ICopy => lit "Copy"
  | IPaste => lit "Paste"
  | IClear => lit "Clear"
  | ISelectAll => lit "SelectAll"
  | IRevertRecordRequest => lit "RevertRecordRequest"
  | IEnterBrowserMode => lit "EnterBrowserMode"
  | IInsertPicture => lit "InsertPicture"
  | ISendEvent => lit "SendEvent"
  | IInsertCurrentUserName => lit "InsertCurrentUserName"
  | IInsertText => lit "InsertText"
  | IPauseResumeScript => lit "PauseResumeScript"
  | ISendMail => lit "SendMail"
  | ISendDdeExecute => lit "SendDdeExecute"
  | IDialPhone => lit "DialPhone"
  | ISpeak => lit "Speak"
  | IPerformApplescript => lit "PerformApplescript"
  | IIf => lit "If"
  | IElse => lit "Else"
  | IEndIf => lit "EndIf"
  | ILoop => lit "Loop"
  | IExitLoopIf => lit "ExitLoopIf"
  | IEndLoop => lit "EndLoop"
  | IGoToRelatedRecord => lit "GoToRelatedRecord"
  | ICommitRecordsRequests => lit "CommitRecordsRequests"
  | ISetField => lit "SetField"
  | IInsertCalculatedResult => lit "InsertCalculatedResult"
  | IFreezeWindow => lit "FreezeWindow"
  | IRefreshWindow => lit "RefreshWindow"
  | IScrollWindow => lit "ScrollWindow"
  | INewFile => lit "NewFile"
  | IChangePassword => lit "ChangePassword"
  | ISetMultiUser => lit "SetMultiUser"
  | IAllowUserAbort => lit "AllowUserAbort"
  | ISetErrorCapture => lit "SetErrorCapture"
  | IShowCustomDialog => lit "ShowCustomDialog"
  | IOpenScriptWorkspace => lit "OpenScriptWorkspace"
  | IBlankLineComment => lit "BlankLineComment"
  | IHaltScript => lit "HaltScript"
  | IReplaceFieldContents => lit "ReplaceFieldContents"
  | IShowHideTextRuler => lit "ShowHideTextRuler"
  | IBeep => lit "Beep"
  | ISetUseSystemFormats => lit "SetUseSystemFormats"
  | IRecoverFile => lit "RecoverFile"
  | ISaveACopyAsAddOnPackage => lit "SaveACopyAsAddOnPackage"
  | ISetZoomLevel => lit "SetZoomLevel"
  | ICopyAllRecordsRequests => lit "CopyAllRecordsRequests"
  | IGoToPortalRow => lit "GoToPortalRow"
  | ICopyRecordRequest => lit "CopyRecordRequest"
  | IFluchCacheToDisk => lit "FluchCacheToDisk"
  | IExitScript => lit "ExitScript"
  | IDeletePortalRow => lit "DeletePortalRow"
  | IOpenPreferences => lit "OpenPreferences"
  | ICorrectWord => lit "CorrectWord"
  | ISpellingOptions => lit "SpellingOptions"
  | ISelectDictionaries => lit "SelectDictionaries"
  | IEditUserDictionary => lit "EditUserDictionary"
  | IOpenUrl => lit "OpenUrl"
  | IOpenManageValueLists => lit "OpenManageValueLists"
  | IOpenSharing => lit "OpenSharing"
  | IOpenFileOptions => lit "OpenFileOptions"
  | IAllowFormattingBar => lit "AllowFormattingBar"
  | ISetNextSerialValue => lit "SetNextSerialValue"
  | IExecuteSql => lit "ExecuteSql"
  | IOpenHosts => lit "OpenHosts"
  | IMoveResizeWindow => lit "MoveResizeWindow"
  | IArrangeAllWindows => lit "ArrangeAllWindows"
  | ICloseWindow => lit "CloseWindow"
  | INewWindow => lit "NewWindow"
  | ISelectWindow => lit "SelectWindow"
  | ISetWindowTitle => lit "SetWindowTitle"
  | IElseIf => lit "ElseIf"
  | IConstrainFoundSet => lit "ConstrainFoundSet"
  | IExtendFoundSet => lit "ExtendFoundSet"
  | IPerformFindReplace => lit "PerformFindReplace"
  | IOpenFindReplace => lit "OpenFindReplace"
  | ISetSelection => lit "SetSelection"
  | IInsertFile => lit "InsertFile"
  | IExportFieldContents => lit "ExportFieldContents"
  | IOpenRecordRequest => lit "OpenRecordRequest"
  | IAddAccount => lit "AddAccount"
  | IDeleteAccount => lit "DeleteAccount"
  | IResetAccountPassword => lit "ResetAccountPassword"
  | IEnableAccount => lit "EnableAccount"
  | IRelogin => lit "Relogin"
  | IConvertFile => lit "ConvertFile"
  | IOpenManageDataSources => lit "OpenManageDataSources"
  | ISetVariable => lit "SetVariable"
  | IInstallMenuSet => lit "InstallMenuSet"
  | ISaveRecordsAsExcel => lit "SaveRecordsAsExcel"
  | ISaveRecordsAsPdf => lit "SaveRecordsAsPdf"
  | IGoToObject => lit "GoToObject"
  | ISetWebViewer => lit "SetWebViewer"
  | ISetFieldByName => lit "SetFieldByName"
  | IInstallOntimerScript => lit "InstallOntimerScript"
  | IOpenEditSavedFinds => lit "OpenEditSavedFinds"
  | IPerformQuickFind => lit "PerformQuickFind"
  | IOpenManageLayouts => lit "OpenManageLayouts"
  | ISaveRecordsAsSnapshotLink => lit "SaveRecordsAsSnapshotLink"
  | ISortRecordsByField => lit "SortRecordsByField"
  | IFindMatchingRecords => lit "FindMatchingRecords"
  | IManageContainers => lit "ManageContainers"
  | IInstallPluginFile => lit "InstallPluginFile"
  | IInsertPdf => lit "InsertPdf"
  | IInsertAudioVideo => lit "InsertAudioVideo"
  | IInsertFromUrl => lit "InsertFromUrl"
  | IInsertFromDevice => lit "InsertFromDevice"
  | IPerformScriptOnServer => lit "PerformScriptOnServer"
  | IOpenManageThemes => lit "OpenManageThemes"
  | IShowHideMenubar => lit "ShowHideMenubar"
  | IRefreshObject => lit "RefreshObject"
  | ISetLayoutObjectAnimation => lit "SetLayoutObjectAnimation"
  | IClosePopover => lit "ClosePopover"
  | IOpenUploadToHost => lit "OpenUploadToHost"
  | IEnableTouchKeyboard => lit "EnableTouchKeyboard"
  | IPerformJavascriptInWebViewer => lit "PerformJavascriptInWebViewer"
  | ICommentedOut => lit "CommentedOut"
  | IAvplayerPlay => lit "AvplayerPlay"
  | IAvplayerSetPlaybackState => lit "AvplayerSetPlaybackState"
  | IAvplayerSetOptions => lit "AvplayerSetOptions"
  | IRefreshPortal => lit "RefreshPortal"
  | IGetFolderPath => lit "GetFolderPath"
  | ITruncateTable => lit "TruncateTable"
  | IOpenFavorites => lit "OpenFavorites"
  | IConfigureRegionMonitorScript => lit "ConfigureRegionMonitorScript"
  | IConfigureLocalNotification => lit "ConfigureLocalNotification"
  | IGetFileExists => lit "GetFileExists"
  | IGetFileSize => lit "GetFileSize"
  | ICreateDataFile => lit "CreateDataFile"
  | IOpenDataFile => lit "OpenDataFile"
  | IWriteToDataFile => lit "WriteToDataFile"
  | IReadFromDataFile => lit "ReadFromDataFile"
  | IGetDataFilePosition => lit "GetDataFilePosition"
  | ISetDataFilePosition => lit "SetDataFilePosition"
  | ICloseDataFile => lit "CloseDataFile"
  | IDeleteFile => lit "DeleteFile"
  | IRenameFile => lit "RenameFile"
  | ISetErrorLogging => lit "SetErrorLogging"
  | IConfigureNfcReading => lit "ConfigureNfcReading"
  | IConfigureMachineLearningModel => lit "ConfigureMachineLearningModel"
  | IExecuteFilemakerDataApi => lit "ExecuteFilemakerDataApi"
  | IOpenTransaction => lit "OpenTransaction"
  | ICommitTransaction => lit "CommitTransaction"
  | IRevertTransaction => lit "RevertTransaction"
  | ISetSessionIdentifier => lit "SetSessionIdentifier"
  | ISetDictionary => lit "SetDictionary"
  | IPerformScriptOnServerWithCallback => lit "PerformScriptOnServerWithCallback"
  | ITriggerClarisConnectFlow => lit "TriggerClarisConnectFlow"
  | IAssert => lit "Assert"
  end.

(** src/fm_script_engine/fm_script_engine_instructions.rs:485-490 [ScriptStep]. *)
Definition step_json (st : step) : json :=
  object [("opcode", JString (instr_name (opcode st))); ("index", number (step_index st)); ("switches", texts (switches st))]%string.

(** src/component.rs:18-26 [FMComponentField]. *)
Definition field_json (f : field) : json :=
  object [("data_type", JString (fl_data_type f)); ("field_description", JString (fl_description f)); ("field_name", JString (fl_name f));
          ("field_type", JString (fl_type f)); ("created_by_account", JString (fl_account f)); ("created_by_user", JString (fl_user f))]%string.

(** src/component.rs:93-100 [FMComponentScript]. *)
Definition script_json (s : script) : json :=
  object [("script_name", JString (sc_name s)); ("created_by_account", JString (sc_account s)); ("create_by_user", JString (sc_user s));
          ("arguments", texts (sc_args s)); ("instructions", JArray (map step_json (sc_steps s)))]%string.

(** src/component.rs:42-49 [FMComponentTest]. *)
Definition test_json (t : test) : json :=
  object [("test_name", JString (te_name t)); ("script", script_json (te_script t)); ("created_by_account", JString (te_account t));
          ("create_by_user", JString (te_user t)); ("assertions", texts (te_assertions t))]%string.

(** src/component.rs:63-70 [FMComponentTable]. *)
Definition table_json (t : table) : json :=
  object [("table_name", JString (tb_name t)); ("created_by_account", JString (tb_account t)); ("create_by_user", JString (tb_user t));
          ("fields", map_json field_json (tb_fields t)); ("init", JBool (tb_init t))]%string.

(** src/component.rs:115-122 [FMComponentTableOccurence]. *)
Definition occurrence_json (o : occurrence) : json :=
  object [("table_occurence_name", JString (oc_name o)); ("table_actual", number (oc_table o)); ("table_actual_name", JString (oc_table_name o));
          ("created_by_account", JString (oc_account o)); ("create_by_user", JString (oc_user o))]%string.

(** src/component.rs:136-145 [RelationComparison]. *)
Definition comparison_name (c : comparison_kind) : list N :=
  match c with
  | CEqual => lit "Equal" | CNotEqual => lit "NotEqual" | CLess => lit "Less" | CLessEqual => lit "LessEqual"
  | CGreater => lit "Greater" | CGreaterEqual => lit "GreaterEqual" | CCartesian => lit "Cartesian"
  end.

(** src/component.rs:147-156 [FMComponentRelationship]. *)
Definition relationship_json (r : relationship) : json :=
  object [("table1", number (rl_table1 r)); ("table1_name", JString (rl_table1_name r)); ("field1", number (rl_field1 r));
          ("table2", number (rl_table2 r)); ("table2_name", JString (rl_table2_name r)); ("field2", number (rl_field2 r));
          ("comparison", JString (comparison_name (rl_cmp r)))]%string.

(** src/component.rs:173-179 [FMComponentLayout]. *)
Definition layout_json (l : layout) : json :=
  object [("layout_name", JString (ly_name l)); ("table_occurrence", number (ly_occurrence l)); ("created_by_account", JString (ly_account l));
          ("create_by_user", JString (ly_user l))]%string.

(** src/component.rs:192-197 [FMComponentValueList]. *)
Definition value_list_json (v : value_list) : json :=
  object [("list_name", JString (vl_name v)); ("created_by_account", JString (vl_account v)); ("create_by_user", JString (vl_user v))]%string.

(** src/component.rs:209-214 [SourceFileLocation]. *)
Definition location_json (l : location) : json :=
  object [("source_type", JString (lo_type l)); ("source_path", JString (lo_path l)); ("source_filename", JString (lo_filename l))]%string.

(** src/component.rs:260-266 [FMComponentDataSource]. *)
Definition source_json (s : data_source) : json :=
  object [("source_name", JString (ds_name s)); ("source_location", location_json (ds_location s)); ("created_by_account", JString (ds_account s));
          ("created_by_user", JString (ds_user s))]%string.

(** src/file.rs:7-18 [FmpFile]; the order of the lists stands for that of the hash maps. *)
Definition file_json (f : fmpfile) : json :=
  object [("name", JString (f_name f)); ("tables", map_json table_json (f_tables f)); ("relationships", map_json relationship_json (f_relationships f));
          ("layouts", map_json layout_json (f_layouts f)); ("value_lists", map_json value_list_json (f_value_lists f));
          ("scripts", map_json script_json (f_scripts f)); ("table_occurrences", map_json occurrence_json (f_occurrences f));
          ("data_sources", map_json source_json (f_sources f)); ("tests", JArray (map test_json (f_tests f)))]%string.

(** ** [serde_json::to_string_pretty], called in main.rs:55 and 78 *)

Definition hex (n : N) : N := if n <? 10 then 48 + n else 87 + n.

(** Characters of a string (main.rs:55 and 78): quotation mark, backslash and control characters are escaped. *)
Definition escaped (c : N) : list N :=
  if c =? 34 then [92; 34]
  else if c =? 92 then [92; 92]
  else if 32 <=? c then [c]
  else if c =? 8 then [92; 98]
  else if c =? 9 then [92; 116]
  else if c =? 10 then [92; 110]
  else if c =? 12 then [92; 102]
  else if c =? 13 then [92; 114]
  else [92; 117; 48; 48; hex (c / 16); hex (c mod 16)].
Definition quoted (s : list N) : list N := 34 :: flat_map escaped s ++ [34].

(** A new line, indented by two blanks for each level (main.rs:55 and 78). *)
Definition line (level : nat) : list N := 10 :: repeat 32 (2 * level).

Fixpoint joined (l : list (list N)) : list N :=
  match l with [] => [] | [x] => x | x :: l => x ++ 44 :: joined l end.

Fixpoint pretty (level : nat) (v : json) : list N :=
  match v with
  | JNull => lit "null"
  | JBool b => if b then lit "true" else lit "false"
  | JNumber d => d
  | JString s => quoted s
  | JArray [] => lit "[]"
  | JArray l => 91 :: joined (map (fun v => line (S level) ++ pretty (S level) v) l) ++ line level ++ [93]
  | JObject [] => lit "{}"
  | JObject l => 123 :: joined (map (fun e => line (S level) ++ quoted (fst e) ++ lit ": " ++ pretty (S level) (snd e)) l) ++ line level ++ [125]
  end.

(** main.rs:55 and 78. *)
Definition inspect_text (f : fmpfile) : list N := pretty 0 (file_json f).
