(** Model of /repo/src/fm_script_engine/fm_script_engine_instructions.rs. *)
From Coq Require Import Ascii String NArith List Bool.
From Verif Require Import Prelude.
Import ListNotations.
Local Open Scope N_scope.

(** src/fm_script_engine/fm_script_engine_instructions.rs:6-199 [Instruction]; constructors get the prefix [I]. *)
Inductive instruction :=
| IPerformScript
| ISaveACopyAsXml
| IGoToNextField
| IGoToPreviousField
| IGoToLayout
| INewRecordRequest
| IDuplicateRecordRequest
| IDeleteRecordRequest
| IDeleteAllRecords
| IInsertFromIndex
| IInsertFromLastVisited
| IInsertCurrentDate
| IInsertCurrentTime
| IGoToRecordRequestPage
| IGoToField
| ICheckSelection
| ICheckRecord
| ICheckFoundSet
| IUnsortRecords
| IEnterFindMode
| IShowAllRecords
| IModifyLastFind
| IOmitRecord
| IOmitMultipleRecords
| IShowOmmitedOnly
| IPerformFind
| IShowHideToolbars
| IViewAs
| IAdjustWindow
| IOpenHelp
| IOpenFile
| ICloseFile
| IImportRecords
| IExportRecords
| ISaveACopyAs
| IOpenManageDatabase
| ISortRecords
| IRelookupFieldContents
| IEnterPreviewMode
| IPrintSetup
| IPrint
| IExitApplication
| IUndoRedo
| ICut
| ICopy
| IPaste
| IClear
| ISelectAll
| IRevertRecordRequest
| IEnterBrowserMode
| IInsertPicture
| ISendEvent
| IInsertCurrentUserName
| IInsertText
| IPauseResumeScript
| ISendMail
| ISendDdeExecute
| IDialPhone
| ISpeak
| IPerformApplescript
| IIf
| IElse
| IEndIf
| ILoop
| IExitLoopIf
| IEndLoop
| IGoToRelatedRecord
| ICommitRecordsRequests
| ISetField
| IInsertCalculatedResult
| IFreezeWindow
| IRefreshWindow
| IScrollWindow
| INewFile
| IChangePassword
| ISetMultiUser
| IAllowUserAbort
| ISetErrorCapture
| IShowCustomDialog
| IOpenScriptWorkspace
| IBlankLineComment
| IHaltScript
| IReplaceFieldContents
| IShowHideTextRuler
| IBeep
| ISetUseSystemFormats
| IRecoverFile
| ISaveACopyAsAddOnPackage
| ISetZoomLevel
| ICopyAllRecordsRequests
| IGoToPortalRow
| ICopyRecordRequest
| IFluchCacheToDisk
| IExitScript
| IDeletePortalRow
| IOpenPreferences
| ICorrectWord
| ISpellingOptions
| ISelectDictionaries
| IEditUserDictionary
| IOpenUrl
| IOpenManageValueLists
| IOpenSharing
| IOpenFileOptions
| IAllowFormattingBar
| ISetNextSerialValue
| IExecuteSql
| IOpenHosts
| IMoveResizeWindow
| IArrangeAllWindows
| ICloseWindow
| INewWindow
| ISelectWindow
| ISetWindowTitle
| IElseIf
| IConstrainFoundSet
| IExtendFoundSet
| IPerformFindReplace
| IOpenFindReplace
| ISetSelection
| IInsertFile
| IExportFieldContents
| IOpenRecordRequest
| IAddAccount
| IDeleteAccount
| IResetAccountPassword
| IEnableAccount
| IRelogin
| IConvertFile
| IOpenManageDataSources
| ISetVariable
| IInstallMenuSet
| ISaveRecordsAsExcel
| ISaveRecordsAsPdf
| IGoToObject
| ISetWebViewer
| ISetFieldByName
| IInstallOntimerScript
| IOpenEditSavedFinds
| IPerformQuickFind
| IOpenManageLayouts
| ISaveRecordsAsSnapshotLink
| ISortRecordsByField
| IFindMatchingRecords
| IManageContainers
| IInstallPluginFile
| IInsertPdf
| IInsertAudioVideo
| IInsertFromUrl
| IInsertFromDevice
| IPerformScriptOnServer
| IOpenManageThemes
| IShowHideMenubar
| IRefreshObject
| ISetLayoutObjectAnimation
| IClosePopover
| IOpenUploadToHost
| IEnableTouchKeyboard
| IPerformJavascriptInWebViewer
| ICommentedOut
| IAvplayerPlay
| IAvplayerSetPlaybackState
| IAvplayerSetOptions
| IRefreshPortal
| IGetFolderPath
| ITruncateTable
| IOpenFavorites
| IConfigureRegionMonitorScript
| IConfigureLocalNotification
| IGetFileExists
| IGetFileSize
| ICreateDataFile
| IOpenDataFile
| IWriteToDataFile
| IReadFromDataFile
| IGetDataFilePosition
| ISetDataFilePosition
| ICloseDataFile
| IDeleteFile
| IRenameFile
| ISetErrorLogging
| IConfigureNfcReading
| IConfigureMachineLearningModel
| IExecuteFilemakerDataApi
| IOpenTransaction
| ICommitTransaction
| IRevertTransaction
| ISetSessionIdentifier
| ISetDictionary
| IPerformScriptOnServerWithCallback
| ITriggerClarisConnectFlow
| IAssert.

(** The same lines of fm_script_engine_instructions.rs (from 5 on): the declared discriminants. *)
Definition discriminant (i : instruction) : N :=
  match i with
  | IPerformScript => 1
  | ISaveACopyAsXml => 3
  | IGoToNextField => 4
  | IGoToPreviousField => 5
  | IGoToLayout => 6
  | INewRecordRequest => 7
  | IDuplicateRecordRequest => 8
  | IDeleteRecordRequest => 9
  | IDeleteAllRecords => 10
  | IInsertFromIndex => 11
  | IInsertFromLastVisited => 12
  | IInsertCurrentDate => 13
  | IInsertCurrentTime => 14
  | IGoToRecordRequestPage => 16
  | IGoToField => 17
  | ICheckSelection => 18
  | ICheckRecord => 19
  | ICheckFoundSet => 20
  | IUnsortRecords => 21
  | IEnterFindMode => 22
  | IShowAllRecords => 23
  | IModifyLastFind => 24
  | IOmitRecord => 25
  | IOmitMultipleRecords => 26
  | IShowOmmitedOnly => 27
  | IPerformFind => 28
  | IShowHideToolbars => 29
  | IViewAs => 30
  | IAdjustWindow => 31
  | IOpenHelp => 32
  | IOpenFile => 33
  | ICloseFile => 34
  | IImportRecords => 35
  | IExportRecords => 36
  | ISaveACopyAs => 37
  | IOpenManageDatabase => 38
  | ISortRecords => 39
  | IRelookupFieldContents => 40
  | IEnterPreviewMode => 41
  | IPrintSetup => 42
  | IPrint => 43
  | IExitApplication => 44
  | IUndoRedo => 45
  | ICut => 46
  | ICopy => 47
  | IPaste => 48
  | IClear => 49
  | ISelectAll => 50
  | IRevertRecordRequest => 51
  | IEnterBrowserMode => 55
  | IInsertPicture => 56
  | ISendEvent => 57
  | IInsertCurrentUserName => 60
  | IInsertText => 61
  | IPauseResumeScript => 62
  | ISendMail => 63
  | ISendDdeExecute => 64
  | IDialPhone => 65
  | ISpeak => 66
  | IPerformApplescript => 67
  | IIf => 68
  | IElse => 69
  | IEndIf => 70
  | ILoop => 71
  | IExitLoopIf => 72
  | IEndLoop => 73
  | IGoToRelatedRecord => 74
  | ICommitRecordsRequests => 75
  | ISetField => 76
  | IInsertCalculatedResult => 77
  | IFreezeWindow => 79
  | IRefreshWindow => 80
  | IScrollWindow => 81
  | INewFile => 82
  | IChangePassword => 83
  | ISetMultiUser => 84
  | IAllowUserAbort => 85
  | ISetErrorCapture => 86
  | IShowCustomDialog => 87
  | IOpenScriptWorkspace => 88
  | IBlankLineComment => 89
  | IHaltScript => 90
  | IReplaceFieldContents => 91
  | IShowHideTextRuler => 92
  | IBeep => 93
  | ISetUseSystemFormats => 94
  | IRecoverFile => 95
  | ISaveACopyAsAddOnPackage => 96
  | ISetZoomLevel => 97
  | ICopyAllRecordsRequests => 98
  | IGoToPortalRow => 99
  | ICopyRecordRequest => 101
  | IFluchCacheToDisk => 102
  | IExitScript => 103
  | IDeletePortalRow => 104
  | IOpenPreferences => 105
  | ICorrectWord => 106
  | ISpellingOptions => 107
  | ISelectDictionaries => 108
  | IEditUserDictionary => 109
  | IOpenUrl => 111
  | IOpenManageValueLists => 112
  | IOpenSharing => 113
  | IOpenFileOptions => 114
  | IAllowFormattingBar => 115
  | ISetNextSerialValue => 116
  | IExecuteSql => 117
  | IOpenHosts => 118
  | IMoveResizeWindow => 119
  | IArrangeAllWindows => 120
  | ICloseWindow => 121
  | INewWindow => 122
  | ISelectWindow => 123
  | ISetWindowTitle => 124
  | IElseIf => 125
  | IConstrainFoundSet => 126
  | IExtendFoundSet => 127
  | IPerformFindReplace => 128
  | IOpenFindReplace => 129
  | ISetSelection => 130
  | IInsertFile => 131
  | IExportFieldContents => 132
  | IOpenRecordRequest => 133
  | IAddAccount => 134
  | IDeleteAccount => 135
  | IResetAccountPassword => 136
  | IEnableAccount => 137
  | IRelogin => 138
  | IConvertFile => 139
  | IOpenManageDataSources => 140
  | ISetVariable => 141
  | IInstallMenuSet => 142
  | ISaveRecordsAsExcel => 143
  | ISaveRecordsAsPdf => 144
  | IGoToObject => 145
  | ISetWebViewer => 146
  | ISetFieldByName => 147
  | IInstallOntimerScript => 148
  | IOpenEditSavedFinds => 149
  | IPerformQuickFind => 150
  | IOpenManageLayouts => 151
  | ISaveRecordsAsSnapshotLink => 152
  | ISortRecordsByField => 154
  | IFindMatchingRecords => 155
  | IManageContainers => 156
  | IInstallPluginFile => 157
  | IInsertPdf => 158
  | IInsertAudioVideo => 159
  | IInsertFromUrl => 160
  | IInsertFromDevice => 161
  | IPerformScriptOnServer => 164
  | IOpenManageThemes => 165
  | IShowHideMenubar => 166
  | IRefreshObject => 167
  | ISetLayoutObjectAnimation => 168
  | IClosePopover => 169
  | IOpenUploadToHost => 172
  | IEnableTouchKeyboard => 174
  | IPerformJavascriptInWebViewer => 175
  | ICommentedOut => 176
  | IAvplayerPlay => 177
  | IAvplayerSetPlaybackState => 178
  | IAvplayerSetOptions => 179
  | IRefreshPortal => 180
  | IGetFolderPath => 181
  | ITruncateTable => 182
  | IOpenFavorites => 183
  | IConfigureRegionMonitorScript => 185
  | IConfigureLocalNotification => 187
  | IGetFileExists => 188
  | IGetFileSize => 189
  | ICreateDataFile => 190
  | IOpenDataFile => 191
  | IWriteToDataFile => 192
  | IReadFromDataFile => 193
  | IGetDataFilePosition => 194
  | ISetDataFilePosition => 195
  | ICloseDataFile => 196
  | IDeleteFile => 197
  | IRenameFile => 199
  | ISetErrorLogging => 200
  | IConfigureNfcReading => 201
  | IConfigureMachineLearningModel => 202
  | IExecuteFilemakerDataApi => 203
  | IOpenTransaction => 205
  | ICommitTransaction => 206
  | IRevertTransaction => 207
  | ISetSessionIdentifier => 208
  | ISetDictionary => 209
  | IPerformScriptOnServerWithCallback => 210
  | ITriggerClarisConnectFlow => 211
  | IAssert => 255
  end.

(** The [PartialEq] derived at fm_script_engine_instructions.rs:5; the discriminants are distinct. *)
Definition instr_eqb (a b : instruction) : bool := discriminant a =? discriminant b.

(** src/fm_script_engine/fm_script_engine_instructions.rs:201-225 [FromStr for Instruction]; [None] is [Err(())]. *)
Definition instr_from_str (s : list N) : option instruction :=
  if str_eqb s (lit "perform_script") then Some IPerformScript
  else if str_eqb s (lit "go_to_layout") then Some IGoToLayout
  else if str_eqb s (lit "go_to_record") then Some IGoToRecordRequestPage
  else if str_eqb s (lit "go_to_request") then Some IGoToRecordRequestPage
  else if str_eqb s (lit "enter_find_mode") then Some IEnterFindMode
  else if str_eqb s (lit "perform_find") then Some IPerformFind
  else if str_eqb s (lit "show_all_records") then Some IShowAllRecords
  else if str_eqb s (lit "set_field") then Some ISetField
  else if str_eqb s (lit "set_variable") then Some ISetVariable
  else if str_eqb s (lit "loop") then Some ILoop
  else if str_eqb s (lit "if") then Some IIf
  else if str_eqb s (lit "elif") then Some IElseIf
  else if str_eqb s (lit "else") then Some IElse
  else if str_eqb s (lit "exit_loop_if") then Some IExitLoopIf
  else if str_eqb s (lit "new_record_request") then Some INewRecordRequest
  else if str_eqb s (lit "exit_script") then Some IExitScript
  else if str_eqb s (lit "show_custom_dialog") then Some IShowCustomDialog
  else if str_eqb s (lit "assert") then Some IAssert
  else None.

(** src/fm_script_engine/fm_script_engine_instructions.rs:227-483 [INSTRUCTIONMAP]. *)
Definition INSTRUCTIONMAP : list (option instruction) :=
  [
   None;
   Some IPerformScript;
   None;
   Some ISaveACopyAsXml;
   Some IGoToNextField;
   Some IGoToPreviousField;
   Some IGoToLayout;
   Some INewRecordRequest;
   Some IDuplicateRecordRequest;
   Some IDeleteRecordRequest;
   Some IDeleteAllRecords;
   Some IInsertFromIndex;
   Some IInsertFromLastVisited;
   Some IInsertCurrentDate;
   Some IInsertCurrentTime;
   None;
   Some IGoToRecordRequestPage;
   Some IGoToField;
   Some ICheckSelection;
   Some ICheckRecord;
   Some ICheckFoundSet;
   Some IUnsortRecords;
   Some IEnterFindMode;
   Some IShowAllRecords;
   Some IModifyLastFind;
   Some IOmitRecord;
   Some IOmitMultipleRecords;
   Some IShowOmmitedOnly;
   Some IPerformFind;
   Some IShowHideToolbars;
   Some IViewAs;
   Some IAdjustWindow;
   Some IOpenHelp;
   Some IOpenFile;
   Some ICloseFile;
   Some IImportRecords;
   Some IExportRecords;
   Some ISaveACopyAs;
   Some IOpenManageDatabase;
   Some ISortRecords;
   Some IRelookupFieldContents;
   Some IEnterPreviewMode;
   Some IPrintSetup;
   Some IPrint;
   Some IExitApplication;
   Some IUndoRedo;
   Some ICut;
   Some ICopy;
   Some IPaste;
   Some IClear;
   Some ISelectAll;
   Some IRevertRecordRequest;
   None;
   None;
   None;
   Some IEnterBrowserMode;
   Some IInsertPicture;
   Some ISendEvent;
   None;
   None;
   Some IInsertCurrentUserName;
   Some IInsertText;
   Some IPauseResumeScript;
   Some ISendMail;
   Some ISendDdeExecute;
   Some IDialPhone;
   Some ISpeak;
   Some IPerformApplescript;
   Some IIf;
   Some IElse;
   Some IEndIf;
   Some ILoop;
   Some IExitLoopIf;
   Some IEndLoop;
   Some IGoToRelatedRecord;
   Some ICommitRecordsRequests;
   Some ISetField;
   Some IInsertCalculatedResult;
   None;
   Some IFreezeWindow;
   Some IRefreshWindow;
   Some IScrollWindow;
   Some INewFile;
   Some IChangePassword;
   Some ISetMultiUser;
   Some IAllowUserAbort;
   Some ISetErrorCapture;
   Some IShowCustomDialog;
   Some IOpenScriptWorkspace;
   Some IBlankLineComment;
   Some IHaltScript;
   Some IReplaceFieldContents;
   Some IShowHideTextRuler;
   Some IBeep;
   Some ISetUseSystemFormats;
   Some IRecoverFile;
   Some ISaveACopyAsAddOnPackage;
   Some ISetZoomLevel;
   Some ICopyAllRecordsRequests;
   Some IGoToPortalRow;
   None;
   Some ICopyRecordRequest;
   Some IFluchCacheToDisk;
   Some IExitScript;
   Some IDeletePortalRow;
   Some IOpenPreferences;
   Some ICorrectWord;
   Some ISpellingOptions;
   Some ISelectDictionaries;
   Some IEditUserDictionary;
   None;
   Some IOpenUrl;
   Some IOpenManageValueLists;
   Some IOpenSharing;
   Some IOpenFileOptions;
   Some IAllowFormattingBar;
   Some ISetNextSerialValue;
   Some IExecuteSql;
   Some IOpenHosts;
   Some IMoveResizeWindow;
   Some IArrangeAllWindows;
   Some ICloseWindow;
   Some INewWindow;
   Some ISelectWindow;
   Some ISetWindowTitle;
   Some IElseIf;
   Some IConstrainFoundSet;
   Some IExtendFoundSet;
   Some IPerformFindReplace;
   Some IOpenFindReplace;
   Some ISetSelection;
   Some IInsertFile;
   Some IExportFieldContents;
   Some IOpenRecordRequest;
   Some IAddAccount;
   Some IDeleteAccount;
   Some IResetAccountPassword;
   Some IEnableAccount;
   Some IRelogin;
   Some IConvertFile;
   Some IOpenManageDataSources;
   Some ISetVariable;
   Some IInstallMenuSet;
   Some ISaveRecordsAsExcel;
   Some ISaveRecordsAsPdf;
   Some IGoToObject;
   Some ISetWebViewer;
   Some ISetFieldByName;
   Some IInstallOntimerScript;
   Some IOpenEditSavedFinds;
   Some IPerformQuickFind;
   Some IOpenManageLayouts;
   Some ISaveRecordsAsSnapshotLink;
   None;
   Some ISortRecordsByField;
   Some IFindMatchingRecords;
   Some IManageContainers;
   Some IInstallPluginFile;
   Some IInsertPdf;
   Some IInsertAudioVideo;
   Some IInsertFromUrl;
   Some IInsertFromDevice;
   None;
   None;
   Some IPerformScriptOnServer;
   Some IOpenManageThemes;
   Some IShowHideMenubar;
   Some IRefreshObject;
   Some ISetLayoutObjectAnimation;
   Some IClosePopover;
   None;
   None;
   Some IOpenUploadToHost;
   None;
   Some IEnableTouchKeyboard;
   Some IPerformJavascriptInWebViewer;
   Some ICommentedOut;
   Some IAvplayerPlay;
   Some IAvplayerSetPlaybackState;
   Some IAvplayerSetOptions;
   Some IRefreshPortal;
   Some IGetFolderPath;
   Some ITruncateTable;
   Some IOpenFavorites;
   None;
   Some IConfigureRegionMonitorScript;
   None;
   Some IConfigureLocalNotification;
   Some IGetFileExists;
   Some IGetFileSize;
   Some ICreateDataFile;
   Some IOpenDataFile;
   Some IWriteToDataFile;
   Some IReadFromDataFile;
   Some IGetDataFilePosition;
   Some ISetDataFilePosition;
   Some ICloseDataFile;
   Some IDeleteFile;
   None;
   Some IRenameFile;
   Some ISetErrorLogging;
   Some IConfigureNfcReading;
   Some IConfigureMachineLearningModel;
   Some IExecuteFilemakerDataApi;
   None;
   Some IOpenTransaction;
   Some ICommitTransaction;
   Some IRevertTransaction;
   Some ISetSessionIdentifier;
   Some ISetDictionary;
   Some IPerformScriptOnServerWithCallback;
   Some ITriggerClarisConnectFlow;
   None;
   None;
   None;
   None;
   None;
   None;
   None;
   None;
   None;
   None;
   None;
   None;
   None;
   None;
   None;
   None;
   None;
   None;
   None;
   None;
   None;
   None;
   None;
   None;
   None;
   None;
   None;
   None;
   None;
   None;
   None;
   None;
   None;
   None;
   None;
   None;
   None;
   None;
   None;
   None;
   None;
   None;
   Some IAssert].

(** src/fm_script_engine/fm_script_engine_instructions.rs:485-490 [ScriptStep]. *)
Record step := mkStep {
  opcode : instruction;
  step_index : N;
  switches : list (list N);
}.
